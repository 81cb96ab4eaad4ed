(** Property C26: string interning. *)
From Coq Require Import ZifyBool.
From Verif Require Import Base Arr GArr KhashModel KhashProofs InternModel.
Ltac Zify.zify_post_hook ::= Z.div_mod_to_equations.

Lemma bytes_eqb_eq a b : bytes_eqb a b = true <-> a = b.
Proof.
  revert b. induction a as [|x a IH]; intros [|y b]; cbn; split; try congruence; try discriminate.
  - intros H. apply andb_prop in H. destruct H as [A B]. apply IH in B. f_equal; [lia|exact B].
  - intros H. injection H as -> ->. rewrite Z.eqb_refl. cbn. apply IH. reflexivity.
Qed.
Lemma cstr_id b : ~ In 0 b -> cstr b = b.
Proof.
  induction b as [|c b IH]; intros H; [reflexivity|]. cbn in *. destruct (Z.eqb_spec c 0); [tauto|].
  f_equal. apply IH. tauto.
Qed.
Lemma se_refl a : str_equal a a = true. Proof. apply bytes_eqb_eq. reflexivity. Qed.
Lemma se_sym a b : str_equal a b = str_equal b a.
Proof.
  unfold str_equal. destruct (bytes_eqb (fst a) (fst b)) eqn:E.
  - apply bytes_eqb_eq in E. rewrite E. symmetry. apply bytes_eqb_eq. reflexivity.
  - destruct (bytes_eqb (fst b) (fst a)) eqn:E'; [|reflexivity]. apply bytes_eqb_eq in E'. rewrite E' in E.
    rewrite (proj2 (bytes_eqb_eq _ _) eq_refl) in E. discriminate.
Qed.
Lemma se_trans a b c : str_equal a b = true -> str_equal b c = true -> str_equal a c = true.
Proof. unfold str_equal. rewrite !bytes_eqb_eq. congruence. Qed.
Lemma se_compat a b : str_equal a b = true -> str_hash a = str_hash b.
Proof. unfold str_equal, str_hash. rewrite bytes_eqb_eq. congruence. Qed.

Notation sinv := (inv str_equal str_hash).
(** every interned pointer designates a string object with that content (up to the first NUL) *)
Record winv (P : pstate) : Prop := {
  w_inv : sinv (strs P);
  w_obj : forall c p u, mem (strs P) ((c, p), u) -> (exists b, objs P p = Some b /\ cstr b = c) /\ 0 < p < next P;
  w_next : 0 < next P }.
Definition interned (P : pstate) (c : bytes) (p : Z) : Prop := mem (strs P) ((c, p), tt).

Lemma interned_fun P c p q : winv P -> interned P c p -> interned P c q -> p = q.
Proof.
  intros W [i Oi] [j Oj]. assert (i = j).
  { apply (inv_uniq _ _ _ (w_inv _ W) _ _ _ _ Oi Oj). apply bytes_eqb_eq. reflexivity. }
  subst j. pose proof (occ_inj _ _ _ _ Oi Oj) as E. congruence.
Qed.

Lemma lookup_ok P c : winv P ->
  (exists p, interned P c p /\ 0 < p /\ lookup_str P c = Ok p) \/
  ((forall p, ~ interned P c p) /\ lookup_str P c = Ok 0).
Proof.
  intros W. unfold lookup_str.
  destruct (get_ok str_equal str_hash se_refl se_sym se_trans se_compat (strs P) (c, 0) (w_inv _ W))
    as [(i & [[c' p] []] & O & Q & G)|(N & G)]; rewrite G; cbn [bind].
  - left. unfold str_equal in Q. cbn in Q. apply bytes_eqb_eq in Q. subst c'. exists p.
    assert (M : interned P c p) by (exists i; exact O).
    pose proof (occ_range _ _ _ _ _ (w_inv _ W) O). destruct (Z.eqb_spec i (n_buckets (strs P))); [lia|]. cbn [negb].
    destruct O as (f & _ & _ & Ee). rewrite (grd_Some _ _ _ Ee). cbn.
    split; [exact M|]. split; [|reflexivity]. apply (w_obj _ W) in M. lia.
  - right. split; [|rewrite Z.eqb_refl; reflexivity]. intros p M. apply N in M. unfold str_equal in M. cbn in M.
    rewrite (proj2 (bytes_eqb_eq _ _) eq_refl) in M. discriminate.
Qed.

Definition limit : Z := 16777216.
Lemma room (t : khash skey unit) : sinv t -> n_occupied t < limit -> upper_bound t <= n_occupied t ->
  next_n (n_buckets t) <= 67108864.
Proof.
  intros I H L. rewrite (inv_ub _ _ _ I) in L. unfold next_n. destruct (Z.eqb_spec (n_buckets t) 0); [lia|].
  unfold hash_upper, limit in *. lia.
Qed.

(** entering a fresh string *)
Lemma add_ok junk P c s b0 : winv P -> n_occupied (strs P) < limit -> (forall p, ~ interned P c p) ->
  objs P s = Some b0 -> cstr b0 = c -> 0 < s < next P ->
  exists P', add_str junk P (c, s) = Ok P' /\ winv P' /\ interned P' c s /\
   (forall c' p, interned P c' p -> interned P' c' p) /\ objs P' = objs P /\ next P' = next P /\
   (forall c' p, interned P' c' p -> interned P c' p \/ (c' = c /\ p = s)) /\
   n_occupied (strs P') <= n_occupied (strs P) + 1.
Proof.
  intros W L N O CB R. unfold add_str.
  destruct (put_ok str_equal str_hash se_refl se_sym se_trans se_compat junk (strs P) (c, s) (w_inv _ W))
    as (t & x & r & E & I & SO & OC & _ & [[c' p'] []] & Ox & Q & D).
  { apply room; [apply W|exact L]. }
  rewrite E. cbn [bind]. eexists. split; [reflexivity|].
  assert (FR : forall e, mem (strs P) e -> str_equal (fst e) (c, s) = false).
  { intros [[a b] []] M. destruct (str_equal (a, b) (c, s)) eqn:X; [|exact X]. unfold str_equal in X. cbn in X.
    apply bytes_eqb_eq in X. subst a. destruct (N b M). }
  assert (KE : (c', p') = (c, s)).
  { destruct D as [[_ M]|(_ & A & _)]; [|exact A]. apply FR in M. congruence. }
  injection KE as -> ->.
  assert (KEEP : forall c' p, interned P c' p -> mem t ((c', p), tt)).
  { intros c' p M. apply SO; [apply (FR _ M)|exact M]. }
  assert (BACK : forall a b u, mem t ((a, b), u) -> mem (strs P) ((a, b), u) \/ (a = c /\ b = s)).
  { intros a b u M. destruct (str_equal (a, b) (c, s)) eqn:X.
    + right. unfold str_equal in X. cbn in X. apply bytes_eqb_eq in X. subst a. split; [reflexivity|].
      destruct M as [j Oj]. assert (j = x).
      { apply (inv_uniq _ _ _ I _ _ _ _ Oj Ox). apply bytes_eqb_eq. reflexivity. }
      subst j. pose proof (occ_inj _ _ _ _ Oj Ox) as Y. injection Y as -> _. reflexivity.
    + left. destruct u. apply SO; assumption. }
  split; [|split; [|split; [|split; [|split; [|split]]]]]; cbn [strs objs next].
  - constructor; cbn [strs objs next]; [exact I| |apply W].
    intros a b u M. destruct (BACK a b u M) as [M'|[-> ->]]; [apply (w_obj _ W _ _ u M')|]. eauto.
  - exists x. exact Ox.
  - exact KEEP.
  - reflexivity.
  - reflexivity.
  - intros a b M. apply (BACK a b tt M).
  - exact OC.
Qed.
Lemma new_ok P chars : winv P -> exists P', new_str P chars = (P', next P) /\ winv P' /\ strs P' = strs P /\
  objs P' (next P) = Some chars /\ (forall q, q < next P -> objs P' q = objs P q) /\ next P < next P'.
Proof.
  intros W. unfold new_str. eexists. split; [reflexivity|]. pose proof (zlen_nonneg chars). pose proof (w_next _ W).
  split; [|cbn; split; [reflexivity|split; [rewrite Z.eqb_refl; reflexivity|split; [|lia]]]].
  - constructor; cbn; [apply W| |lia]. intros c p u M. destruct (w_obj _ W _ _ _ M) as [A B].
    destruct (Z.eqb_spec p (next P)); [lia|]. split; [exact A|lia].
  - intros q Hq. destruct (Z.eqb_spec q (next P)); [lia|reflexivity].
Qed.

(** ** Specification: the ways of making a string, with their intended content *)
Inductive mk := MStr (s : bytes) | MStr2 (s : bytes) | MCat (a b : bytes).
Definition content (m : mk) : bytes :=
  match m with MStr s => s | MStr2 s => s | MCat a b => a ++ b end.
(** the arguments of potion_str and potion_strcat are C strings *)
Definition mk_ok (m : mk) : Prop :=
  match m with MStr s => ~ In 0 s | MStr2 _ => True | MCat a b => ~ In 0 a /\ ~ In 0 b end.
Definition make (junk : Z -> skey * unit) (P : pstate) (m : mk) : res (pstate * Z) :=
  match m with
  | MStr s => potion_str junk P s
  | MStr2 s => potion_str2 junk P s
  | MCat a b => potion_strcat junk P a b
  end.
Fixpoint make_all (js : nat -> Z -> skey * unit) (P : pstate) (l : list mk) : res (pstate * list Z) :=
  match l with
  | [] => Ok (P, [])
  | m :: l' => do (P, p) <- make (js (length l)) P m;
               do (P, ps) <- make_all js P l'; Ok (P, p :: ps)
  end.
Definition initial : pstate := mkP kh_empty (fun _ => None) 4096.

(** what becomes of the set when a string is made *)
Definition made (P P' : pstate) (m : mk) (p : Z) : Prop :=
  winv P' /\ interned P' (cstr (content m)) p /\
  (forall c q, interned P c q -> interned P' c q) /\ n_occupied (strs P') <= n_occupied (strs P) + 1 /\
  (forall c q, interned P' c q -> interned P c q \/ (c = cstr (content m) /\ objs P' q = Some (content m) /\ next P <= q)) /\
  (forall q, q < next P -> objs P' q = objs P q) /\ next P <= next P'.
Lemma make_ok junk P m : winv P -> n_occupied (strs P) < limit -> mk_ok m ->
  exists P' p, make junk P m = Ok (P', p) /\ made P P' m p.
Proof.
  intros W L NZ. pose proof (w_next _ W) as NX.
  assert (TAIL : forall P1 s b c, winv P1 -> strs P1 = strs P -> objs P1 s = Some b -> cstr b = c -> next P <= s -> 0 < s < next P1 ->
     (forall q, q < next P -> objs P1 q = objs P q) -> content m = b -> cstr (content m) = c ->
     exists P' p, (do found <- lookup_str P1 c;
        if found =? 0 then do P <- add_str junk P1 (c, s); Ok (P, s) else Ok (P1, found)) = Ok (P', p) /\ made P P' m p).
  { intros P1 s b c W1 S1 O1 C1 NS R1 OO EB EC. assert (KEEP1 : forall c q, interned P c q -> interned P1 c q).
    { intros c' q. unfold interned. rewrite S1. auto. }
    unfold made. rewrite EC, EB.
    destruct (lookup_ok P1 c W1) as [(p & I & Hp & E)|(N & E)]; rewrite E; cbn [bind].
    - destruct (Z.eqb_spec p 0); [lia|]. exists P1, p. split; [reflexivity|]. split; [exact W1|]. split; [exact I|].
      split; [exact KEEP1|]. rewrite S1. split; [lia|]. split; [|split; [exact OO|lia]]. intros c' q. unfold interned. rewrite S1. auto.
    - rewrite Z.eqb_refl. destruct (add_ok junk P1 c s b W1 ltac:(rewrite S1; exact L) N O1 C1 R1) as (P2 & E2 & W2 & I2 & K2 & O2 & N2 & B2 & OC).
      rewrite E2. cbn [bind]. exists P2, s. split; [reflexivity|]. split; [exact W2|]. split; [exact I2|].
      split; [auto|]. rewrite S1 in OC. split; [exact OC|]. rewrite O2, N2. split; [|split; [exact OO|lia]].
      intros c' q M. destruct (B2 c' q M) as [M'|[-> ->]]; [left; unfold interned in *; rewrite S1 in M'; exact M' | right; auto]. }
  destruct m as [s|s|a b]; cbn [make content mk_ok] in *.
  - unfold potion_str. destruct (lookup_ok P s W) as [(p & I & Hp & E)|(N & E)]; rewrite E; cbn [bind].
    + destruct (Z.eqb_spec p 0); [lia|]. exists P, p. split; [reflexivity|]. unfold made. cbn [content]. rewrite (cstr_id s NZ).
      split; [exact W|]. split; [exact I|]. split; [auto|]. split; [lia|]. split; [auto|]. split; [auto|lia].
    + rewrite Z.eqb_refl. destruct (new_ok P s W) as (P1 & E1 & W1 & S1 & O1 & OO & NN). rewrite E1.
      assert (N1 : forall p, ~ interned P1 s p) by (intros p; unfold interned; rewrite S1; apply N).
      destruct (TAIL P1 (next P) s s) as (P2 & p & E2 & M2); auto; try lia; try (apply cstr_id, NZ).
      destruct (lookup_ok P1 s W1) as [(p' & I' & _)|(_ & E')]; [destruct (N1 p' I')|]. rewrite E' in E2. cbn [bind] in E2. rewrite Z.eqb_refl in E2. eauto.
  - unfold potion_str2. destruct (new_ok P s W) as (P1 & E1 & W1 & S1 & O1 & OO & NN). rewrite E1.
    apply (TAIL P1 (next P) s); auto; lia.
  - unfold potion_strcat. destruct (new_ok P (a ++ b) W) as (P1 & E1 & W1 & S1 & O1 & OO & NN). rewrite E1.
    assert (NZ' : ~ In 0 (a ++ b)) by (rewrite in_app_iff; tauto).
    apply (TAIL P1 (next P) (a ++ b)); auto; try lia; apply cstr_id, NZ'.
Qed.
Lemma mk_ok_nul m : ~ In 0 (content m) -> mk_ok m.
Proof. destruct m; cbn; auto. rewrite in_app_iff. tauto. Qed.
Definition exactly (P : pstate) : Prop := forall c p, interned P c p -> objs P p = Some c.

Lemma make_all_ok js l : forall P, winv P -> exactly P -> n_occupied (strs P) + zlen l <= limit ->
  (forall m, In m l -> ~ In 0 (content m)) ->
  exists P' ps, make_all js P l = Ok (P', ps) /\ winv P' /\ exactly P' /\ length ps = length l /\
    (forall i, (i < length l)%nat -> interned P' (content (nth i l (MStr []))) (nth i ps 0)) /\
    (forall c q, interned P c q -> interned P' c q).
Proof.
  induction l as [|m l IH]; intros P W X L NZ.
  - exists P, []. split; [reflexivity|]. split; [exact W|]. split; [exact X|]. split; [reflexivity|]. split; [cbn; lia|auto].
  - rewrite zlen_cons in L. pose proof (zlen_nonneg l). assert (NM : ~ In 0 (content m)) by (apply NZ; left; reflexivity).
    destruct (make_ok (js (length (m :: l))) P m W) as (P1 & p & E1 & W1 & I1 & K1 & O1 & B1 & OO & _); [lia|apply mk_ok_nul, NM|].
    rewrite (cstr_id _ NM) in *.
    assert (X1 : exactly P1).
    { intros c q M. destruct (B1 c q M) as [M'|(-> & Q & _)]; [|exact Q]. pose proof (w_obj _ W _ _ _ M'). rewrite OO by lia. apply X, M'. }
    destruct (IH P1 W1 X1) as (P2 & ps & E2 & W2 & X2 & LN & I2 & K2); [lia|intros; apply NZ; right; assumption|].
    exists P2, (p :: ps). cbn [make_all]. rewrite E1. cbn [bind]. rewrite E2. cbn [bind].
    split; [reflexivity|]. split; [exact W2|]. split; [exact X2|]. split; [cbn; congruence|]. split; [|auto].
    intros [|i] Hi; cbn [nth]; [apply K2, I1|]. apply I2. cbn in Hi. lia.
Qed.
Lemma winv_initial : winv initial.
Proof.
  constructor; cbn.
  - apply inv_empty.
  - intros c p u [i (f & A & _)]. cbn in A. unfold gnth in A. destruct (i <? 0); [discriminate|].
    destruct (Z.to_nat i); discriminate.
  - lia.
Qed.

(** Without collections and for texts without NUL characters, strings made in
    any order by literals, conversion and concatenation are the same object
    exactly when their contents are equal, and have the requested content. *)
Theorem C26_interning_is_canonical :
  forall js l, zlen l <= 16777216 -> (forall m, In m l -> ~ In 0 (content m)) ->
  exists P ps, make_all js initial l = Ok (P, ps) /\ length ps = length l /\
   (forall i, (i < length l)%nat -> objs P (nth i ps 0) = Some (content (nth i l (MStr [])))) /\
   (forall i j, (i < length l)%nat -> (j < length l)%nat ->
      (nth i ps 0 = nth j ps 0 <-> content (nth i l (MStr [])) = content (nth j l (MStr [])))).
Proof.
  intros js l L NZ. assert (NI : forall c p, ~ interned initial c p).
  { intros c p [i (f & A & _)]. cbn in A. unfold gnth in A. destruct (i <? 0); [discriminate|]. destruct (Z.to_nat i); discriminate. }
  destruct (make_all_ok js l initial winv_initial) as (P & ps & E & W & X & LN & I & _); [intros c p M; destruct (NI c p M)|cbn; exact L|exact NZ|].
  exists P, ps. split; [exact E|]. split; [exact LN|]. split.
  - intros i Hi. apply X, I, Hi.
  - intros i j Hi Hj. pose proof (I i Hi) as A. pose proof (I j Hj) as B. split.
    + intros Q. rewrite Q in A. apply X in A. apply X in B. congruence.
    + intros Q. rewrite Q in A. apply (interned_fun P _ _ _ W A B).
Qed.
Example C26_example : exists P, make_all (fun _ _ => (([], 0), tt)) initial
  [MStr [104; 105]; MStr2 [120]; MCat [104] [105]; MStr [120]; MStr []] = Ok (P, [4096; 4122; 4096; 4122; 4173]).
Proof. vm_compute. eexists. reflexivity. Qed.

(** The full claim fails for contents with a NUL (potion_str2 compares only up
    to it): converting bytes "a\0b" returns the string "a". *)
Theorem C26_embedded_nul_refuted :
  exists js l P ps i, make_all js initial l = Ok (P, ps) /\ (i < length l)%nat /\
    objs P (nth i ps 0) <> Some (content (nth i l (MStr []))).
Proof.
  exists (fun _ _ => (([], 0), tt)), [MStr [97]; MStr2 [97; 0; 98]]. do 2 eexists. exists 1%nat.
  split; [vm_compute; reflexivity|]. split; [cbn; lia|]. vm_compute. discriminate.
Qed.
(** ... and for formatted strings, which are never entered into the set
    (string.c 81-96): the same text twice gives two objects. *)
Theorem C26_format_is_not_interned_refuted :
  forall P text, winv P -> let (P1, p) := potion_str_format P text in
    let (P2, q) := potion_str_format P1 text in p <> q /\ objs P2 p = objs P2 q.
Proof.
  intros P text W. unfold potion_str_format, new_str. cbn. pose proof (zlen_nonneg text). split; [lia|].
  rewrite Z.eqb_refl. rewrite Z.eqb_refl. destruct (_ =? _); reflexivity.
Qed.

(** ** With collections, embedded NULs and formatted strings *)
(** what the sweep makes of an entry *)
Definition image (f : Z -> fate) (e e' : skey * unit) : Prop :=
  match f (snd (fst e)) with Stay => e' = e | Moved q => e' = ((fst (fst e), q), snd e) | Dead => False end.
Lemma set_key_ok (t : khash skey unit) k e q : sinv t -> occ t k e ->
  exists t', (do kv' <- gwr (kv t) k ((fst (fst e), q), snd e);
              Ok (mkH (n_buckets t) (kh_sz t) (n_occupied t) (upper_bound t) (fl t) kv')) = Ok t' /\ sinv t' /\
    n_buckets t' = n_buckets t /\ n_occupied t' = n_occupied t /\
    forall i e', occ t' i e' <-> (i = k /\ e' = ((fst (fst e), q), snd e)) \/ (i <> k /\ occ t i e').
Proof.
  intros I O. pose proof O as (f & Ef & Lf & Ee). pose proof (gnth_Some _ _ _ Ee) as R. rewrite gwr_ok by exact R. cbn [bind].
  eexists. split; [reflexivity|]. set (h' := mkH _ _ _ _ _ _).
  assert (OC : forall i e', occ h' i e' <-> (i = k /\ e' = ((fst (fst e), q), snd e)) \/ (i <> k /\ occ t i e')).
  { intros i e'. unfold occ, h'. cbn [fl kv]. rewrite gnth_gupd by exact R. destruct (Z.eqb_spec k i) as [<-|NE].
    - split.
      + intros (f' & A & B & C). left. split; congruence.
      + intros [[_ ->]|[A _]]; [|contradiction]. exists f. auto.
    - split; [right; auto|]. intros [[A _]|[_ A]]; [congruence|exact A]. }
  assert (KK : forall i e', occ h' i e' -> exists e'', occ t i e'' /\ fst (fst e'') = fst (fst e')).
  { intros i e' O'. apply OC in O'. destruct O' as [[-> ->]|[_ O']]; [exists e; auto|exists e'; auto]. }
  split; [|auto]. constructor; unfold h'; cbn [n_buckets kh_sz n_occupied upper_bound fl kv]; try apply I.
  - rewrite zlen_gupd. apply I.
  - intros i e' O'. destruct (KK _ _ O') as (e'' & A & Q). pose proof (inv_probe _ _ _ I _ _ A) as X.
    unfold reach in *. destruct X as (s & X1 & X2 & X3). exists s.
    assert (PE : forall s, pos str_hash (n_buckets t) (fst e') s = pos str_hash (n_buckets t) (fst e'') s).
    { intros s0. unfold pos, stepw, str_hash. rewrite Q. reflexivity. }
    rewrite PE. split; [exact X1|]. split; [exact X2|]. intros s0 S0. rewrite PE. exact (X3 s0 S0).
  - intros a b ea eb A B Q. destruct (KK _ _ A) as (ea' & A1 & A2). destruct (KK _ _ B) as (eb' & B1 & B2).
    apply (inv_uniq _ _ _ I _ _ _ _ A1 B1). unfold str_equal in *. congruence.
Qed.
Lemma sweep_from_ok f : forall cnt k t, sinv t -> 0 <= k -> k + Z.of_nat cnt = n_buckets t ->
  exists t', sweep_from f cnt k t = Ok t' /\ sinv t' /\ n_buckets t' = n_buckets t /\ n_occupied t' = n_occupied t /\
    forall i e', occ t' i e' <-> (i < k /\ occ t i e') \/ (k <= i /\ exists e, occ t i e /\ image f e e').
Proof.
  induction cnt as [|cnt IH]; intros k t I K N; cbn [sweep_from].
  - exists t. split; [reflexivity|]. split; [exact I|]. split; [reflexivity|]. split; [reflexivity|].
    intros i e'. split.
    + intros O. pose proof (occ_range _ _ _ _ _ I O). left. split; [lia | exact O].
    + intros [[_ O]|[L (e & O & _)]]; [exact O|]. pose proof (occ_range _ _ _ _ _ I O). lia.
  - assert (EF : exists fk, gnth (fl t) k = Some fk).
    { unfold gnth. replace (k <? 0) with false by lia. destruct (nth_error (fl t) (Z.to_nat k)) eqn:Q; [eauto|].
      apply nth_error_None in Q. pose proof (inv_fl _ _ _ I) as LF. unfold zlen in LF. lia. }
    destruct EF as (fk & EF). rewrite (grd_Some _ _ _ EF). cbn [bind].
    (* one step *)
    assert (STEP : exists t1, (if negb (iseither fk) then do e <- grd (kv t) k; match f (snd (fst e)) with Stay => Ok t
               | Moved q => do kv' <- gwr (kv t) k ((fst (fst e), q), snd e); Ok (mkH (n_buckets t) (kh_sz t) (n_occupied t) (upper_bound t) (fl t) kv')
               | Dead => kh_del t k end else Ok t) = Ok t1 /\ sinv t1 /\ n_buckets t1 = n_buckets t /\ n_occupied t1 = n_occupied t /\
       forall i e', occ t1 i e' <-> (i <> k /\ occ t i e') \/ (i = k /\ exists e, occ t k e /\ image f e e')).
    { destruct (iseither fk) eqn:F; cbn [negb].
      - exists t. split; [reflexivity|]. split; [exact I|]. split; [reflexivity|]. split; [reflexivity|].
        assert (NO : forall e, ~ occ t k e) by (intros e (f' & A & B & _); congruence).
        intros i e'. split.
        + intros O. left. split; [|exact O]. intros ->. destruct (NO e' O).
        + intros [[_ O]|[_ (e & O & _)]]; [exact O|]. destruct (NO e O).
      - assert (EE : exists e, gnth (kv t) k = Some e).
        { unfold gnth. replace (k <? 0) with false by lia. destruct (nth_error (kv t) (Z.to_nat k)) eqn:Q; [eauto|].
          apply nth_error_None in Q. pose proof (inv_kv _ _ _ I) as LF. unfold zlen in LF. lia. }
        destruct EE as (e & EE). assert (O : occ t k e) by (exists fk; auto). rewrite (grd_Some _ _ _ EE). cbn [bind].
        destruct (f (snd (fst e))) as [|q|] eqn:FF.
        + exists t. split; [reflexivity|]. split; [exact I|]. split; [reflexivity|]. split; [reflexivity|]. intros i e'. split.
          * intros O'. destruct (Z.eq_dec i k) as [->|NE]; [|auto]. right. split; [reflexivity|]. exists e. split; [exact O|].
            unfold image. rewrite FF. apply (occ_inj _ _ _ _ O' O).
          * intros [[_ O']|[-> (e0 & O' & IM)]]; [exact O'|]. rewrite (occ_inj _ _ _ _ O' O) in IM. unfold image in IM. rewrite FF in IM. subst e'. exact O.
        + destruct (set_key_ok t k e q I O) as (t1 & E1 & I1 & N1 & M1 & O1). exists t1. split; [exact E1|]. split; [exact I1|].
          split; [exact N1|]. split; [exact M1|]. intros i e'. rewrite O1. split.
          * intros [[-> ->]|A]; [|auto]. right. split; [reflexivity|]. exists e. split; [exact O|]. unfold image. rewrite FF. reflexivity.
          * intros [A|[-> (e0 & O' & IM)]]; [auto|]. rewrite (occ_inj _ _ _ _ O' O) in IM. unfold image in IM. rewrite FF in IM. subst e'. auto.
        + destruct (del_ok str_equal str_hash se_refl t k e I O) as (t1 & E1 & I1 & M1 & NB & NO). exists t1. split; [exact E1|]. split; [exact I1|].
          split; [exact NB|]. split; [exact NO|].
          assert (O1 : forall i e', occ t1 i e' <-> i <> k /\ occ t i e').
          { unfold kh_del in E1. pose proof (occ_range _ _ _ _ _ I O) as R. replace (n_buckets t <? k) with false in E1 by lia. cbn [andb] in E1.
            destruct (Z.eqb_spec k (n_buckets t)); [lia|]. cbn [negb] in E1. rewrite (grd_Some _ _ _ EF) in E1. cbn [bind] in E1. rewrite F in E1. cbn [negb] in E1.
            rewrite gwr_ok in E1 by (rewrite (inv_fl _ _ _ I); exact R). cbn [bind] in E1. injection E1 as <-.
            intros i e'. unfold occ. cbn [fl kv]. rewrite gnth_gupd by (rewrite (inv_fl _ _ _ I); exact R).
            destruct (Z.eqb_spec k i) as [->|NE].
            - split; [|intros [A _]; congruence]. intros (f' & A & B & _). injection A as <-. unfold iseither in B. cbn in B.
              rewrite orb_true_r in B. discriminate.
            - split; [|tauto]. intros A. split; [congruence|exact A]. }
          intros i e'. rewrite O1. split; [auto|]. intros [A|[-> (e0 & O' & IM)]]; [exact A|].
          rewrite (occ_inj _ _ _ _ O' O) in IM. unfold image in IM. rewrite FF in IM. destruct IM. }
    destruct STEP as (t1 & -> & I1 & N1 & M1 & O1). cbn [bind].
    destruct (IH (k + 1) t1 I1 ltac:(lia) ltac:(lia)) as (t2 & E2 & I2 & N2 & M2 & O2).
    exists t2. split; [exact E2|]. split; [exact I2|]. split; [lia|]. split; [lia|]. intros i e'. rewrite O2. split.
    + intros [[L O]|[L (e & O & IM)]].
      * apply O1 in O. destruct O as [[A B]|[-> B]]; [left; split; [lia|exact B] | right; split; [lia|exact B]].
      * apply O1 in O. destruct O as [[A B]|[-> B]]; [right; split; [lia|eauto] | lia].
    + intros [[L O]|[L (e & O & IM)]].
      * left. split; [lia|]. apply O1. left. split; [lia|exact O].
      * destruct (Z.eq_dec i k) as [->|NE].
        -- left. split; [lia|]. apply O1. right. split; [reflexivity|]. eauto.
        -- right. split; [lia|]. exists e. split; [apply O1; left; auto | exact IM].
Qed.
(** the collector keeps the characters of the strings it does not drop *)
Definition collected (f : Z -> fate) (P : pstate) (objs' : Z -> option bytes) (next' : Z) : Prop :=
  0 < next' /\ forall c p, interned P c p ->
  match f p with Stay => objs' p = objs P p /\ p < next' | Moved q => objs' q = objs P p /\ 0 < q < next' | Dead => True end.
Lemma sweep_ok f objs' next' P : winv P -> collected f P objs' next' ->
  exists P', sweep f objs' next' P = Ok P' /\ winv P' /\ n_occupied (strs P') = n_occupied (strs P) /\ objs P' = objs' /\ next P' = next' /\
    forall c q, interned P' c q <-> exists p, interned P c p /\ (f p = Stay /\ q = p \/ f p = Moved q).
Proof.
  intros W (NX & C). unfold sweep. pose proof (w_inv _ W) as I. pose proof (zlen_nonneg (fl (strs P))) as ZN. rewrite (inv_fl _ _ _ I) in ZN.
  destruct (sweep_from_ok f (Z.to_nat (n_buckets (strs P))) 0 (strs P) I ltac:(lia) ltac:(lia)) as (t & E & I' & N' & M' & O'). rewrite E. cbn [bind].
  eexists. split; [reflexivity|].
  assert (IN : forall c q u, mem t ((c, q), u) <-> exists p, interned P c p /\ (f p = Stay /\ q = p \/ f p = Moved q)).
  { intros c q []. split.
    - intros [i O]. apply O' in O. destruct O as [[L O]|[L (ee & O & IM)]]; [pose proof (occ_range _ _ _ _ _ I O); lia|]. destruct ee as [[c0 p] u0]. destruct u0.
      unfold image in IM. cbn [fst snd] in IM. destruct (f p) as [|q'|] eqn:F; [| |destruct IM].
      + injection IM as -> ->. exists p. split; [exists i; exact O | auto].
      + injection IM as -> ->. exists p. split; [exists i; exact O | auto].
    - intros (p & [i O] & Q). exists i. apply O'. right. pose proof (occ_range _ _ _ _ _ I O). split; [lia|].
      exists ((c, p), tt). split; [exact O|]. unfold image. cbn [fst snd]. destruct Q as [[-> ->] | -> ]; reflexivity. }
  split; [|split; [exact M'|split; [reflexivity|split; [reflexivity|]]]].
  - constructor; cbn [strs objs next]; [exact I'| |exact NX]. intros c q u M. apply IN in M. destruct M as (p & M & Q).
    destruct (w_obj _ W _ _ _ M) as [(b & B1 & B2) R]. specialize (C c p M). destruct Q as [[Q ->]|Q]; rewrite Q in C.
    + destruct C as [C1 C2]. split; [exists b; rewrite C1; auto | lia].
    + destruct C as [C1 C2]. split; [exists b; rewrite C1; auto | lia].
  - intros c q. apply (IN c q tt).
Qed.
(** Histories: strings made (with the content asked for, up to the first NUL, and the
    current address), formatted strings, collections.  A collection removes what it
    forgets from the list. *)
Definition carried (f : Z -> fate) (known : list (bytes * Z)) : list (bytes * Z) :=
  flat_map (fun '(c, p) => match f p with Stay => [(c, p)] | Moved q => [(c, q)] | Dead => [] end) known.
Inductive reached : pstate -> list (bytes * Z) -> Z -> Prop :=
| reached_start : reached initial [] 0
| reached_make junk P known n m P' p : reached P known n -> mk_ok m -> make junk P m = Ok (P', p) ->
    reached P' ((cstr (content m), p) :: known) (n + 1)
| reached_format P known n text P' p : reached P known n -> potion_str_format P text = (P', p) -> reached P' known n
| reached_collect P known n f objs' next' P' : reached P known n -> collected f P objs' next' -> sweep f objs' next' P = Ok P' ->
    reached P' (carried f known) n.
Lemma reached_inv P known n : reached P known n -> n <= 16777216 ->
  winv P /\ 0 <= n_occupied (strs P) <= n /\ forall c p, In (c, p) known -> interned P c p.
Proof.
  intros R. induction R as [|junk P known n m P' p R IH MK E|P known n text P' p R IH E|P known n f objs' next' P' R IH C E]; intros L.
  - split; [apply winv_initial|]. split; [cbn; lia|]. intros c p [].
  - destruct (IH ltac:(lia)) as (W & O & K). destruct (make_ok junk P m W) as (P1 & p1 & E1 & W1 & I1 & K1 & O1 & _); [unfold limit; lia|exact MK|].
    rewrite E in E1. injection E1 as <- <-. split; [exact W1|]. split.
    + pose proof (size_le_occ _ _ _ (w_inv _ W1)). lia.
    + intros c q [Q|Q]; [injection Q as <- <-; exact I1 | apply K1, K, Q].
  - destruct (IH L) as (W & O & K). destruct (new_ok P text W) as (P1 & E1 & W1 & S1 & _). unfold potion_str_format in E. rewrite E in E1. injection E1 as -> ->.
    split; [exact W1|]. unfold interned. rewrite S1. auto.
  - destruct (IH L) as (W & O & K). destruct (sweep_ok f objs' next' P W C) as (P1 & E1 & W1 & N1 & _ & _ & I1). rewrite E in E1. injection E1 as <-.
    split; [exact W1|]. split; [lia|]. intros c q Q. unfold carried in Q. apply in_flat_map in Q. destruct Q as ((c0 & p) & Q1 & Q2).
    apply I1. destruct (f p) as [|q'|] eqn:F; [| |destruct Q2].
    + destruct Q2 as [Q2|[]]. injection Q2 as <- <-. exists p. split; [apply K, Q1 | auto].
    + destruct Q2 as [Q2|[]]. injection Q2 as <- <-. exists p. split; [apply K, Q1 | auto].
Qed.
(** After any history a string can be made; it is the same object as a string made before
    and not forgotten exactly when their contents are equal (up to the first NUL). *)
Theorem C26_same_object_iff_same_content junk P known n m : reached P known n -> n < 16777216 -> mk_ok m ->
  exists P' p, make junk P m = Ok (P', p) /\ (exists b, objs P' p = Some b /\ cstr b = cstr (content m)) /\
    forall c q, In (c, q) known -> (p = q <-> c = cstr (content m)).
Proof.
  intros R L MK. destruct (reached_inv P known n R ltac:(lia)) as (W & O & K).
  destruct (make_ok junk P m W) as (P1 & p & E & W1 & I1 & K1 & _); [unfold limit; lia|exact MK|].
  exists P1, p. split; [exact E|]. split; [apply (w_obj _ W1 _ _ tt I1)|]. intros c q Q. apply K, K1 in Q. split.
  - intros <-. destruct (w_obj _ W1 _ _ _ I1) as [(b & B1 & B2) _], (w_obj _ W1 _ _ _ Q) as [(b' & B3 & B4) _]. congruence.
  - intros ->. apply (interned_fun P1 _ _ _ W1 I1 Q).
Qed.
(** A collection of any kind never fails, and a string it forgets becomes a new object when it is made again. *)
Theorem C26_forgotten_string_is_made_anew junk P known n f objs' next' m : reached P known n -> n < 16777216 ->
  collected f P objs' next' -> mk_ok m -> (forall q, interned P (cstr (content m)) q -> f q = Dead) ->
  exists P1 P2 p, sweep f objs' next' P = Ok P1 /\ make junk P1 m = Ok (P2, p) /\
    next' <= p /\ objs P2 p = Some (content m).
Proof.
  intros R L C MK D. destruct (reached_inv P known n R ltac:(lia)) as (W & O & K).
  destruct (sweep_ok f objs' next' P W C) as (P1 & E1 & W1 & N1 & O1 & X1 & I1).
  destruct (make_ok junk P1 m W1) as (P2 & p & E2 & W2 & I2 & K2 & _ & B2 & _); [unfold limit; lia|exact MK|].
  exists P1, P2, p. split; [exact E1|]. split; [exact E2|]. destruct (B2 _ _ I2) as [B|(_ & B1 & B3)]; [|split; [lia|exact B1]].
  exfalso. apply I1 in B. destruct B as (q & Q & F). rewrite (D q Q) in F. destruct F as [[F _]|F]; discriminate.
Qed.
(** a history: "hi" and "x" are made, a collection moves "hi" to 8192 and forgets "x";
    then "hi" is found at its new address, and "x" is made anew *)
Definition J0 (i : Z) : skey * unit := (([], 0), tt).
Definition okP (r : res (pstate * Z)) : pstate := match r with Ok (P, _) => P | _ => initial end.
Definition exP : pstate := okP (make J0 (okP (make J0 initial (MStr [104; 105]))) (MStr [120])).
Definition exF (p : Z) : fate := if p =? 4096 then Moved 8192 else Dead.
Definition exO (p : Z) : option bytes := if p =? 8192 then Some [104; 105] else None.
Definition exP' : pstate := match sweep exF exO 9000 exP with Ok P => P | _ => initial end.
Example C26_history_example :
  reached exP' [([104; 105], 8192)] 2 /\
  (exists P, make J0 exP' (MStr2 [104; 105; 0; 33]) = Ok (P, 8192)) /\
  (exists P, make J0 exP' (MStr [120]) = Ok (P, 9000)).
Proof.
  assert (R : reached exP [([120], 4122); ([104; 105], 4096)] 2).
  { apply (reached_make J0 (okP (make J0 initial (MStr [104; 105]))) [([104; 105], 4096)] 1 (MStr [120])); [|cbn; lia|vm_compute; reflexivity].
    apply (reached_make J0 initial [] 0 (MStr [104; 105])); [apply reached_start|cbn; lia|vm_compute; reflexivity]. }
  split; [|split; [vm_compute; eexists; reflexivity | vm_compute; eexists; reflexivity]].
  change [([104; 105], 8192)] with (carried exF [([120], 4122); ([104; 105], 4096)]).
  apply (reached_collect exP _ 2 exF exO 9000); [exact R| |vm_compute; reflexivity].
  split; [lia|]. intros c p I. unfold exF. destruct (Z.eqb_spec p 4096) as [->|]; [|exact Logic.I]. split; [vm_compute; reflexivity|lia].
Qed.

(** ** The hash function *)
(** The hash loop ends, for every string, and reads only characters of the string: more
    rounds change nothing, and neither do the bytes behind the string. *)
Lemma hash_more : forall n k s t h l step, 1 <= step -> l <= zlen s -> l < Z.of_nat n ->
  luaS_loop (n + k) (s ++ t) h l step = luaS_loop n s h l step.
Proof.
  induction n as [|n IH]; intros k s t h l step A B C.
  - destruct k as [|k]; cbn [Nat.add luaS_loop]; [reflexivity|]. destruct (l >=? step) eqn:E; [lia | reflexivity].
  - cbn [Nat.add luaS_loop]. destruct (l >=? step) eqn:E; [|reflexivity].
    rewrite app_nth1 by (unfold zlen in B; lia). apply IH; lia.
Qed.
Theorem C26_hash_reads_the_string s t n : (length s < n)%nat ->
  luaS_loop n (s ++ t) (u32 (zlen s)) (zlen s) (Z.shiftr (zlen s) 5 + 1) = luaS_hash s.
Proof.
  intros L. unfold luaS_hash. replace n with (S (length s) + (n - S (length s)))%nat by lia.
  pose proof (zlen_nonneg s). assert (0 <= Z.shiftr (zlen s) 5) by (rewrite Z.shiftr_nonneg; lia).
  apply hash_more; unfold zlen in *; lia.
Qed.
