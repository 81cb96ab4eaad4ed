(** Invariant of the hash table and correctness of its operations. *)
From Coq Require Import ZifyBool Permutation Znumtheory Zpow_facts.
From Verif Require Import Base Arr GArr KhashModel.
Ltac Zify.zify_post_hook ::= Z.div_mod_to_equations.

Definition pow2 (n : Z) : Prop := exists k, 2 <= k /\ n = 2 ^ k.

Lemma pow2_ge n : pow2 n -> 4 <= n.
Proof. intros [k [H ->]]. change 4 with (2 ^ 2). apply Z.pow_le_mono_r; lia. Qed.
Lemma pow2_double n : pow2 n -> pow2 (n * 2).
Proof. intros [k [H ->]]. exists (k + 1). split; [lia|]. rewrite Z.pow_add_r by lia. reflexivity. Qed.
Lemma pow2_4 : pow2 4. Proof. exists 2. split; [lia|reflexivity]. Qed.
Lemma land_mask n x : pow2 n -> Z.land x (n - 1) = x mod n.
Proof.
  intros [k [H ->]]. replace (2 ^ k - 1) with (Z.ones k) by (rewrite Z.ones_equiv; lia).
  apply Z.land_ones. lia.
Qed.

Definition live (f : flag) : bool := negb (iseither f).
Definition nonempty (f : flag) : bool := negb (isempty f).

Lemma hash_upper_lt n : 4 <= n -> 0 < hash_upper n < n.
Proof. unfold hash_upper. lia. Qed.
Lemma hash_upper_mono a b : a <= b -> hash_upper a <= hash_upper b.
Proof. unfold hash_upper. intros. apply Z.div_le_mono; lia. Qed.

Lemma least_or_none (P : Z -> bool) n :
  (forall s, 0 <= s < Z.of_nat n -> P s = false) \/
  exists T, 0 <= T < Z.of_nat n /\ P T = true /\ (forall s, 0 <= s < T -> P s = false).
Proof.
  induction n as [|n [IH|IH]].
  - left. intros. lia.
  - destruct (P (Z.of_nat n)) eqn:E.
    + right. exists (Z.of_nat n). split; [lia|]. split; [exact E|exact IH].
    + left. intros s H. destruct (Z.eq_dec s (Z.of_nat n)) as [->|N]; [exact E|apply IH; lia].
  - right. destruct IH as (T & A & B & C). exists T. split; [lia|]. auto.
Qed.
Lemma least_Z (P : Z -> bool) b : 0 <= b -> P b = true ->
  exists T, 0 <= T <= b /\ P T = true /\ (forall s, 0 <= s < T -> P s = false).
Proof.
  intros Hb H. destruct (least_or_none P (Z.to_nat (b + 1))) as [A|(T & A & B & C)].
  - rewrite A in H by lia. discriminate.
  - exists T. split; [lia|]. auto.
Qed.

Section Proofs.
Context {K V : Type} (keqb : K -> K -> bool) (hash : K -> Z).
Hypothesis keqb_refl : forall a, keqb a a = true.
Hypothesis keqb_sym : forall a b, keqb a b = keqb b a.
Hypothesis keqb_trans : forall a b c, keqb a b = true -> keqb b c = true -> keqb a c = true.
Hypothesis hash_compat : forall a b, keqb a b = true -> hash a = hash b.
Notation table := (khash K V).

(** ** the probe sequence *)
Definition stepw (key : K) : Z := Z.lor (hash key) 1.
Definition pos (n : Z) (key : K) (t : Z) : Z := (hash key + t * stepw key) mod n.

Lemma stepw_odd key : Z.odd (stepw key) = true.
Proof. unfold stepw. rewrite <- Z.bit0_odd, Z.lor_spec. cbn. apply orb_true_r. Qed.
Lemma pos_range n key t : pow2 n -> 0 <= pos n key t < n.
Proof. intros H. apply pow2_ge in H. apply Z.mod_pos_bound. lia. Qed.
Lemma stepw_coprime n key : pow2 n -> rel_prime (stepw key) n.
Proof.
  intros [k [Hk ->]]. apply rel_prime_Zpower_r; [lia|].
  apply rel_prime_sym, prime_rel_prime; [apply prime_2|].
  intros [q E]. pose proof (stepw_odd key) as O. rewrite E, Z.odd_mul in O. cbn in O.
  rewrite andb_false_r in O. discriminate.
Qed.
Lemma pos_inj n key a b : pow2 n -> 0 <= a < n -> 0 <= b < n -> pos n key a = pos n key b -> a = b.
Proof.
  intros Hn Ha Hb E. pose proof (pow2_ge _ Hn). unfold pos in E.
  assert (D : (n | (a - b) * stepw key)).
  { apply Z.mod_divide; [lia|].
    replace ((a - b) * stepw key) with ((hash key + a * stepw key) - (hash key + b * stepw key)) by ring.
    rewrite Zminus_mod, E, Z.sub_diag. apply Z.mod_0_l. lia. }
  rewrite Z.mul_comm in D. apply Gauss in D; [|apply rel_prime_sym, stepw_coprime; exact Hn].
  destruct D as [q D]. assert (q = 0) by nia. lia.
Qed.
Lemma pos_surj n key i : pow2 n -> 0 <= i < n -> exists t, 0 <= t < n /\ pos n key t = i.
Proof.
  intros Hn Hi. pose proof (pow2_ge _ Hn).
  destruct (rel_prime_bezout _ _ (stepw_coprime n key Hn)) as [u v E].
  exists ((u * (i - hash key)) mod n). split; [apply Z.mod_pos_bound; lia|].
  unfold pos. rewrite Zplus_mod, Zmult_mod, Z.mod_mod, <- Zmult_mod, <- Zplus_mod by lia.
  replace (hash key + u * (i - hash key) * stepw key) with (i + (- (v * (i - hash key))) * n).
  - rewrite Z.mod_add by lia. apply Z.mod_small. lia.
  - replace (u * (i - hash key) * stepw key) with ((u * stepw key) * (i - hash key)) by ring.
    replace (u * stepw key) with (1 - v * n) by lia. ring.
Qed.
Lemma pos_0 n key : pow2 n -> Z.land (hash key) (n - 1) = pos n key 0.
Proof. intros H. rewrite land_mask by exact H. unfold pos. f_equal. lia. Qed.
Lemma pos_step n key t : pow2 n -> n <= 67108864 ->
  Z.land (u32 (pos n key t + Z.land (Z.lor (hash key) 1) (n - 1))) (n - 1) = pos n key (t + 1).
Proof.
  intros H L. pose proof (pos_range n key t H). pose proof (pow2_ge _ H). rewrite !land_mask by exact H.
  pose proof (Z.mod_pos_bound (Z.lor (hash key) 1) n ltac:(lia)).
  unfold u32, two32. rewrite (Z.mod_small _ 4294967296) by lia.
  unfold pos, stepw. rewrite <- Zplus_mod. f_equal. ring.
Qed.
Lemma pos_compat n a b t : keqb a b = true -> pos n a t = pos n b t.
Proof. intros H. unfold pos, stepw. rewrite (hash_compat _ _ H). reflexivity. Qed.

(** a bucket is reached through buckets satisfying [ne] *)
Definition reach (ne : Z -> Prop) (n : Z) (key : K) (i : Z) : Prop :=
  exists t, 0 <= t < n /\ pos n key t = i /\ (forall s, 0 <= s < t -> ne (pos n key s)).
Lemma reach_mono (ne ne' : Z -> Prop) n key i : (forall j, ne j -> ne' j) -> reach ne n key i -> reach ne' n key i.
Proof. intros H (t & A & B & C). exists t. split; [exact A|]. split; [exact B|]. auto. Qed.

(** ** the invariant *)
Definition full (h : table) (i : Z) : Prop := exists f, gnth (fl h) i = Some f /\ isempty f = false.
Definition occ (h : table) (i : Z) (e : K * V) : Prop :=
  exists f, gnth (fl h) i = Some f /\ iseither f = false /\ gnth (kv h) i = Some e.
Definition mem (h : table) (e : K * V) : Prop := exists i, occ h i e.

Record inv (h : table) : Prop := {
  inv_n : n_buckets h = 0 \/ pow2 (n_buckets h);
  inv_nle : n_buckets h <= 67108864;
  inv_fl : zlen (fl h) = n_buckets h;
  inv_kv : zlen (kv h) = n_buckets h;
  inv_sz : kh_sz h = count live (fl h);
  inv_occ : n_occupied h = count nonempty (fl h);
  inv_ub : upper_bound h = (if n_buckets h =? 0 then 0 else hash_upper (n_buckets h));
  inv_le : n_occupied h <= upper_bound h;
  inv_probe : forall i e, occ h i e -> reach (full h) (n_buckets h) (fst e) i;
  inv_uniq : forall i j ei ej, occ h i ei -> occ h j ej -> keqb (fst ei) (fst ej) = true -> i = j }.

Lemma occ_range h i e : inv h -> occ h i e -> 0 <= i < n_buckets h.
Proof. intros I (f & A & _). apply gnth_Some in A. rewrite (inv_fl _ I) in A. exact A. Qed.
Lemma occ_inj h i e e' : occ h i e -> occ h i e' -> e = e'.
Proof. intros (f & _ & _ & A) (g & _ & _ & B). congruence. Qed.

Lemma inv_empty : inv kh_empty.
Proof.
  constructor; cbn; try reflexivity; try lia.
  - intros i e (f & A & _). cbn in A. rewrite gnth_None in A by (intros [? L]; rewrite zlen_nil in L; lia). discriminate.
  - intros i j ei ej (f & A & _). cbn in A. rewrite gnth_None in A by (intros [? L]; rewrite zlen_nil in L; lia). discriminate.
Qed.

Lemma size_le_occ h : inv h -> 0 <= kh_sz h <= n_occupied h.
Proof.
  intros I. rewrite (inv_sz _ I), (inv_occ _ I). split; [apply count_nonneg|].
  apply count_le_impl. intros [e d]. unfold live, nonempty, iseither, isempty, isdel. cbn. destruct e, d; auto.
Qed.
Lemma has_empty h : inv h -> n_buckets h <> 0 -> exists i f, gnth (fl h) i = Some f /\ isempty f = true.
Proof.
  intros I N. destruct (count_lt_exists nonempty (fl h)) as (i & f & A & B).
  - rewrite <- (inv_occ _ I), (inv_fl _ I). pose proof (inv_le _ I). rewrite (inv_ub _ I) in H.
    destruct (Z.eqb_spec (n_buckets h) 0); [contradiction|].
    destruct (inv_n _ I) as [E|E]; [contradiction|]. pose proof (hash_upper_lt _ (pow2_ge _ E)). lia.
  - exists i, f. split; [exact A|]. unfold nonempty in B. destruct (isempty f); [reflexivity|discriminate].
Qed.

(** ** searching *)
Definition stops (h : table) (key : K) (i : Z) : bool :=
  match gnth (fl h) i, gnth (kv h) i with
  | Some f, Some e => isempty f || (negb (isdel f) && keqb (fst e) key)
  | _, _ => true
  end.
Lemma first_stop h key : inv h -> n_buckets h <> 0 ->
  exists T, 0 <= T < n_buckets h /\ stops h key (pos (n_buckets h) key T) = true /\
            (forall s, 0 <= s < T -> stops h key (pos (n_buckets h) key s) = false).
Proof.
  intros I N. destruct (has_empty h I N) as (i & f & A & B).
  destruct (inv_n _ I) as [E|P]; [contradiction|].
  pose proof (gnth_Some _ _ _ A) as R. rewrite (inv_fl _ I) in R.
  destruct (pos_surj _ key i P R) as (t & Ht & Et).
  destruct (least_Z (fun t => stops h key (pos (n_buckets h) key t)) t) as (T & H1 & H2 & H3).
  - lia.
  - rewrite Et. unfold stops. rewrite A, B. destruct (gnth (kv h) i); reflexivity.
  - exists T. split; [lia|]. auto.
Qed.

Lemma get_loop_run h key T : inv h -> pow2 (n_buckets h) -> 0 <= T < n_buckets h ->
  stops h key (pos (n_buckets h) key T) = true ->
  (forall s, 0 <= s < T -> stops h key (pos (n_buckets h) key s) = false) ->
  forall m t fuel, Z.of_nat m = T - t -> 0 <= t -> (m < fuel)%nat ->
  get_loop keqb fuel h key (pos (n_buckets h) key t) (Z.land (Z.lor (hash key) 1) (n_buckets h - 1))
    (pos (n_buckets h) key 0) (n_buckets h - 1) = Ok (pos (n_buckets h) key T).
Proof.
  intros I P HT HS HN. set (n := n_buckets h) in *.
  induction m as [|m IH]; intros t fuel Hm Ht Hf.
  - destruct fuel as [|fuel]; [lia|]. cbn [get_loop].
    assert (t = T) by lia. subst t. pose proof (pos_range n key T P) as R.
    destruct (gnth_in (fl h) (pos n key T)) as [f Ef]; [rewrite (inv_fl _ I); exact R|].
    destruct (gnth_in (kv h) (pos n key T)) as [e Ee]; [rewrite (inv_kv _ I); exact R|].
    rewrite (grd_Some _ _ _ Ef). cbn [bind]. rewrite (grd_Some _ _ _ Ee). cbn [bind].
    unfold stops in HS. rewrite Ef, Ee in HS. destruct (isempty f); [reflexivity|].
    destruct (isdel f); cbn in *; [discriminate|]. rewrite HS. reflexivity.
  - destruct fuel as [|fuel]; [lia|]. cbn [get_loop]. pose proof (pos_range n key t P) as R.
    assert (HS' : stops h key (pos n key t) = false) by (apply HN; lia).
    destruct (gnth_in (fl h) (pos n key t)) as [f Ef]; [rewrite (inv_fl _ I); exact R|].
    destruct (gnth_in (kv h) (pos n key t)) as [e Ee]; [rewrite (inv_kv _ I); exact R|].
    rewrite (grd_Some _ _ _ Ef). cbn [bind]. rewrite (grd_Some _ _ _ Ee). cbn [bind].
    unfold stops in HS'. rewrite Ef, Ee in HS'. destruct (isempty f); [discriminate|].
    replace (isdel f || negb (keqb (fst e) key)) with true
      by (destruct (isdel f), (keqb (fst e) key); cbn in *; congruence).
    rewrite pos_step; [|exact P|exact (inv_nle _ I)].
    destruct (Z.eqb_spec (pos n key (t + 1)) (pos n key 0)) as [E|E].
    + apply pos_inj in E; try exact P; lia.
    + apply IH; lia.
Qed.

(** a live bucket holding an equal key is where the search stops *)
Lemma stop_at_key h key T i e : inv h -> pow2 (n_buckets h) ->
  0 <= T < n_buckets h -> stops h key (pos (n_buckets h) key T) = true ->
  (forall s, 0 <= s < T -> stops h key (pos (n_buckets h) key s) = false) ->
  occ h i e -> keqb (fst e) key = true -> pos (n_buckets h) key T = i.
Proof.
  intros I P HT HS HN O Q. destruct (inv_probe _ I _ _ O) as (t & Ht & Et & Nt).
  rewrite (pos_compat _ _ _ _ Q) in Et.
  destruct O as (f & Ef & Lf & Ee).
  assert (St : stops h key (pos (n_buckets h) key t) = true).
  { rewrite Et. unfold stops. rewrite Ef, Ee, Q. unfold iseither in Lf.
    destruct (isempty f); [reflexivity|]. cbn in *. rewrite Lf. reflexivity. }
  destruct (Z_lt_le_dec t T) as [L|L]; [rewrite HN in St by lia; discriminate|].
  destruct (Z.eq_dec T t) as [->|N]; [exact Et|].
  (* T < t: the bucket at T is full, so it holds the key *)
  destruct (Nt T) as (f' & Ef' & Lf'); [lia|]. rewrite (pos_compat _ _ _ _ Q) in Ef'.
  pose proof (pos_range _ key T P) as R.
  destruct (gnth_in (kv h) (pos (n_buckets h) key T)) as [e' Ee']; [rewrite (inv_kv _ I); exact R|].
  unfold stops in HS. rewrite Ef', Ee', Lf' in HS. cbn in HS. apply andb_prop in HS. destruct HS as [D Q'].
  apply (inv_uniq _ I _ _ e' e).
  - exists f'. split; [exact Ef'|]. split; [|exact Ee']. unfold iseither. rewrite Lf'. cbn.
    destruct (isdel f'); [discriminate|reflexivity].
  - exists f. auto.
  - apply keqb_trans with key; [exact Q'|]. rewrite keqb_sym. exact Q.
Qed.

Lemma get_ok h key : inv h ->
  (exists i e, occ h i e /\ keqb (fst e) key = true /\ kh_get keqb hash h key = Ok i) \/
  ((forall e, mem h e -> keqb (fst e) key = false) /\ kh_get keqb hash h key = Ok (n_buckets h)).
Proof.
  intros I. destruct (Z.eq_dec (n_buckets h) 0) as [E|N].
  { right. split.
    - intros e [i O]. pose proof (occ_range _ _ _ I O). lia.
    - unfold kh_get. rewrite E. reflexivity. }
  destruct (inv_n _ I) as [E|P]; [contradiction|].
  destruct (first_stop h key I N) as (T & HT & HS & HN).
  assert (G : kh_get keqb hash h key =
              (do f <- grd (fl h) (pos (n_buckets h) key T);
               Ok (if iseither f then n_buckets h else pos (n_buckets h) key T))).
  { unfold kh_get. destruct (Z.eqb_spec (n_buckets h) 0); [contradiction|]. cbn [negb].
    rewrite (pos_0 _ _ P).
    rewrite (get_loop_run h key T I P HT HS HN (Z.to_nat T) 0); [|lia|lia|].
    - cbn [bind]. pose proof (pos_range _ key T P).
      destruct (Z.eqb_spec (pos (n_buckets h) key T) (n_buckets h)); [lia|reflexivity].
    - pose proof (inv_fl _ I). unfold zlen in *. lia. }
  pose proof (pos_range _ key T P) as R.
  destruct (gnth_in (fl h) (pos (n_buckets h) key T)) as [f Ef]; [rewrite (inv_fl _ I); exact R|].
  destruct (gnth_in (kv h) (pos (n_buckets h) key T)) as [e Ee]; [rewrite (inv_kv _ I); exact R|].
  rewrite (grd_Some _ _ _ Ef) in G. cbn [bind] in G.
  destruct (iseither f) eqn:Lf.
  - right. split; [|exact G]. intros e' [i O]. destruct (keqb (fst e') key) eqn:Q; [|reflexivity].
    pose proof (stop_at_key h key T i e' I P HT HS HN O Q) as S.
    destruct O as (f' & Ef' & Lf' & _). rewrite <- S in Ef'. congruence.
  - left. exists (pos (n_buckets h) key T), e. split; [exists f; auto|]. split; [|exact G].
    unfold stops in HS. rewrite Ef, Ee in HS. unfold iseither in Lf.
    destruct (isempty f); [discriminate|]. cbn in *. apply andb_prop in HS. apply HS.
Qed.

(** ** growing *)
Variable junk : Z -> K * V.
Definition livO (olds : list flag) (i : Z) : Prop := exists f, gnth olds i = Some f /\ iseither f = false.
Definition plc (nf : list bool) (i : Z) : Prop := gnth nf i = Some false.
Definition occR (olds : list flag) (nf : list bool) (st : list (K * V)) (i : Z) (e : K * V) : Prop :=
  (livO olds i \/ plc nf i) /\ gnth st i = Some e.

Record rinv (n N sz : Z) (M : K * V -> Prop) (olds : list flag) (nf : list bool) (st : list (K * V))
    (c : option (K * V)) : Prop := {
  r_len1 : zlen olds = n; r_len2 : zlen nf = N; r_len3 : zlen st = N;
  r_disj : forall i, livO olds i -> plc nf i -> False;
  r_mem : forall e, M e <-> ((exists i, occR olds nf st i e) \/ c = Some e);
  r_uniq : forall i j ei ej, occR olds nf st i ei -> occR olds nf st j ej -> keqb (fst ei) (fst ej) = true -> i = j;
  r_uniqc : forall i ei e, occR olds nf st i ei -> c = Some e -> keqb (fst ei) (fst e) = false;
  r_probe : forall i e, plc nf i -> gnth st i = Some e -> reach (plc nf) N (fst e) i;
  r_cnt : count live olds + count negb nf + (if c then 1 else 0) = sz }.

Lemma plc_upd nf i j : 0 <= i < zlen nf -> (plc (gupd nf i false) j <-> i = j \/ plc nf j).
Proof.
  intros R. unfold plc. rewrite gnth_gupd by exact R. destruct (Z.eqb_spec i j) as [->|N].
  - split; auto.
  - split; [auto|intros [E|E]; [contradiction|exact E]].
Qed.
Lemma livO_upd (olds : list flag) i j (b : bool) : 0 <= i < zlen olds -> (livO (gupd (A := flag) olds i (b, true)) j <-> i <> j /\ livO olds j).
Proof.
  intros R. unfold livO. split.
  - intros (f & A & B). rewrite gnth_gupd in A by exact R. destruct (Z.eqb_spec i j) as [->|N].
    + injection A as <-. unfold iseither, isdel in B. cbn in B. rewrite orb_true_r in B. discriminate.
    + split; [exact N|]. exists f. auto.
  - intros (N & f & A & B). exists f. rewrite gnth_gupd by exact R.
    destruct (Z.eqb_spec i j); [contradiction|]. auto.
Qed.

Lemma probe_new_run N nf key T : pow2 N -> N <= 67108864 -> zlen nf = N -> 0 <= T < N ->
  gnth nf (pos N key T) = Some true ->
  (forall s, 0 <= s < T -> plc nf (pos N key s)) ->
  forall m t fuel, Z.of_nat m = T - t -> 0 <= t -> (m < fuel)%nat ->
  probe_new fuel nf (pos N key t) (Z.land (Z.lor (hash key) 1) (N - 1)) (N - 1) = Ok (pos N key T).
Proof.
  intros P L Hl HT HS HN. induction m as [|m IH]; intros t fuel Hm Ht Hf.
  - destruct fuel as [|fuel]; [lia|]. cbn [probe_new]. assert (t = T) by lia. subst t.
    rewrite (grd_Some _ _ _ HS). reflexivity.
  - destruct fuel as [|fuel]; [lia|]. cbn [probe_new]. assert (S : plc nf (pos N key t)) by (apply HN; lia).
    rewrite (grd_Some _ _ _ S). cbn [bind negb]. rewrite pos_step by assumption. apply IH; lia.
Qed.
Lemma probe_new_ok N nf key : pow2 N -> N <= 67108864 -> zlen nf = N -> count negb nf < N ->
  exists T, 0 <= T < N /\ gnth nf (pos N key T) = Some true /\
    (forall s, 0 <= s < T -> plc nf (pos N key s)) /\
    probe_new (S (length nf)) nf (Z.land (hash key) (N - 1)) (Z.land (Z.lor (hash key) 1) (N - 1)) (N - 1)
      = Ok (pos N key T).
Proof.
  intros P L Hl Hc. destruct (count_lt_exists negb nf) as (i & x & A & B); [lia|].
  assert (x = true) by (destruct x; [reflexivity|discriminate]). subst x.
  pose proof (gnth_Some _ _ _ A) as R. rewrite Hl in R. destruct (pos_surj N key i P R) as (t & Ht & Et).
  set (Q := fun t => match gnth nf (pos N key t) with Some b => b | None => false end).
  destruct (least_Z Q t) as (T & H1 & H2 & H3); [lia|unfold Q; rewrite Et, A; reflexivity|].
  assert (HS : gnth nf (pos N key T) = Some true).
  { unfold Q in H2. destruct (gnth nf (pos N key T)); [congruence|discriminate]. }
  assert (HN : forall s, 0 <= s < T -> plc nf (pos N key s)).
  { intros s Hs. specialize (H3 s Hs). unfold Q in H3.
    destruct (gnth_in nf (pos N key s)) as [b E]; [rewrite Hl; apply pos_range; exact P|].
    unfold plc. rewrite E in *. congruence. }
  exists T. split; [lia|]. split; [exact HS|]. split; [exact HN|].
  rewrite pos_0 by exact P. apply (probe_new_run N nf key T P L Hl) with (m := Z.to_nat T); try assumption; try lia.
  unfold zlen in Hl. lia.
Qed.

Lemma kick_ok n N sz M : pow2 N -> N <= 67108864 -> 0 <= n <= N -> sz < N ->
  forall fuel olds nf st c, rinv n N sz M olds nf st (Some c) -> count live olds < Z.of_nat fuel ->
  exists olds' nf' st', kick hash fuel n N olds nf st c = Ok (olds', nf', st') /\
    rinv n N sz M olds' nf' st' None /\ (forall i, livO olds' i -> livO olds i).
Proof.
  intros P L Hn Hsz. induction fuel as [|fuel IH]; intros olds nf st c R Hf.
  { pose proof (count_nonneg live olds). lia. }
  destruct R as [L1 L2 L3 D ME U UC PR CN].
  pose proof (count_nonneg live olds) as CL.
  destruct (probe_new_ok N nf (fst c) P L L2) as (T & HT & ET & FT & RUN); [lia|].
  cbn [kick]. rewrite RUN. cbn [bind]. set (i := pos N (fst c) T) in *.
  assert (Ri : 0 <= i < N) by (apply pos_range; exact P).
  rewrite gwr_ok by lia. cbn [bind].
  assert (NP : forall j, plc (gupd nf i false) j <-> i = j \/ plc nf j) by (intros; apply plc_upd; lia).
  assert (RC : reach (plc nf) N (fst c) i) by (exists T; auto).
  assert (MONO : forall k j, reach (plc nf) N k j -> reach (plc (gupd nf i false)) N k j).
  { intros k j. apply reach_mono. intros x Hx. apply NP. auto. }
  assert (CNF : count negb (gupd nf i false) = count negb nf + 1).
  { rewrite (count_gupd _ _ _ _ _ ET). cbn. lia. }
  assert (NPi : ~ plc nf i) by (unfold plc; rewrite ET; discriminate).
  assert (PR' : forall j e, plc (gupd nf i false) j -> gnth (gupd st i c) j = Some e ->
                reach (plc (gupd nf i false)) N (fst e) j).
  { intros j e A B. rewrite gnth_gupd in B by lia. destruct (Z.eqb_spec i j) as [<-|NE].
    - injection B as <-. apply MONO, RC.
    - apply MONO, PR; [|exact B]. apply NP in A. destruct A as [A|A]; [contradiction|exact A]. }
  assert (KEEP : ~ livO olds i -> exists olds' nf' st',
      (do st <- gwr st i c; Ok (olds, gupd nf i false, st)) = Ok (olds', nf', st') /\
      rinv n N sz M olds' nf' st' None /\ (forall i, livO olds' i -> livO olds i)).
  { intros NL. rewrite gwr_ok by lia. cbn [bind]. do 3 eexists. split; [reflexivity|]. split; [|auto].
    assert (OC : forall j e, occR olds (gupd nf i false) (gupd st i c) j e <->
                 (i = j /\ e = c) \/ (i <> j /\ occR olds nf st j e)).
    { intros j e. unfold occR. rewrite NP, gnth_gupd by lia. destruct (Z.eqb_spec i j) as [->|NE].
      - split; [intros [_ E]; left; split; congruence|].
        intros [[_ ->]|[B _]]; [split; auto|contradiction].
      - split.
        + intros [[A|[A|A]] B]; [|contradiction|]; right; auto.
        + intros [[A _]|[_ [A B]]]; [contradiction|]. split; [tauto|exact B]. }
    constructor; rewrite ?zlen_gupd; try assumption.
    - intros j A B. apply NP in B. destruct B as [->|B]; [contradiction|apply (D j A B)].
    - intros e. rewrite ME. split.
      + intros [[j O]|E].
        * left. exists j. apply OC. right. split; [|exact O]. intros <-.
          destruct O as [[A|A] _]; contradiction.
        * left. exists i. apply OC. left. split; [reflexivity|congruence].
      + intros [[j O]|E]; [|discriminate]. apply OC in O. destruct O as [[_ ->]|[_ O]]; [right; reflexivity|left; eauto].
    - intros a b ea eb A B Q. apply OC in A. apply OC in B.
      destruct A as [[<- ->]|[Na A]], B as [[<- ->]|[Nb B]].
      + reflexivity.
      + rewrite keqb_sym in Q. rewrite (UC _ _ _ B eq_refl) in Q. discriminate.
      + rewrite (UC _ _ _ A eq_refl) in Q. discriminate.
      + apply (U _ _ _ _ A B Q).
    - discriminate.
    - cbn in *. lia. }
  destruct (Z.ltb_spec i n) as [Lt|Ge].
  2:{ apply KEEP. intros (f & A & _). apply gnth_Some in A. lia. }
  destruct (gnth_in olds i) as [f Ef]; [lia|]. rewrite (grd_Some _ _ _ Ef). cbn [bind].
  destruct (iseither f) eqn:Lf; cbn [negb].
  { apply KEEP. intros (f' & A & B). congruence. }
  assert (LI : livO olds i) by (exists f; auto).
  destruct (gnth_in st i) as [tmp Etmp]; [lia|]. rewrite (grd_Some _ _ _ Etmp). cbn [bind].
  rewrite gwr_ok by lia. cbn [bind]. rewrite gwr_ok by lia. cbn [bind].
  assert (NL : forall j, livO (gupd (A := flag) olds i (fst f, true)) j <-> i <> j /\ livO olds j)
    by (intros j; apply (livO_upd olds i j (fst f)); lia).
  assert (OC : forall j e, occR (gupd (A := flag) olds i (fst f, true)) (gupd nf i false) (gupd st i c) j e <->
               (i = j /\ e = c) \/ (i <> j /\ occR olds nf st j e)).
  { intros j e. unfold occR. rewrite NP, NL, gnth_gupd by lia. destruct (Z.eqb_spec i j) as [->|NE].
    - split; [intros [_ E]; left; split; congruence|].
      intros [[_ ->]|[B _]]; [split; auto|contradiction].
    - split.
      + intros [[[_ A]|[A|A]] B]; [|contradiction|]; right; auto.
      + intros [[A _]|[_ [A B]]]; [contradiction|]. split; [tauto|exact B]. }
  assert (OT : occR olds nf st i tmp) by (split; auto).
  assert (CO : count live (gupd (A := flag) olds i (fst f, true)) = count live olds - 1).
  { rewrite (count_gupd _ _ _ _ _ Ef). unfold live. rewrite Lf. unfold iseither, isdel. cbn.
    rewrite orb_true_r. cbn. lia. }
  destruct (IH (gupd olds i (fst f, true)) (gupd nf i false) (gupd st i c) tmp) as (o' & n' & s' & E & R' & MO).
  - constructor; rewrite ?zlen_gupd; try assumption.
    + intros j A B. apply NP in B. apply NL in A. destruct A as [A1 A2].
      destruct B as [B|B]; [contradiction|apply (D j A2 B)].
    + intros e. rewrite ME. split.
      * intros [[j O]|E].
        -- destruct (Z.eq_dec i j) as [<-|NE].
           ++ right. destruct O as [_ O]. congruence.
           ++ left. exists j. apply OC. auto.
        -- left. exists i. apply OC. left. split; [reflexivity|congruence].
      * intros [[j O]|E].
        -- apply OC in O. destruct O as [[_ ->]|[_ O]]; [right; reflexivity|left; eauto].
        -- injection E as <-. left. eauto.
    + intros a b ea eb A B Q. apply OC in A. apply OC in B.
      destruct A as [[<- ->]|[Na A]], B as [[<- ->]|[Nb B]].
      * reflexivity.
      * rewrite keqb_sym in Q. rewrite (UC _ _ _ B eq_refl) in Q. discriminate.
      * rewrite (UC _ _ _ A eq_refl) in Q. discriminate.
      * apply (U _ _ _ _ A B Q).
    + intros j ej e A E. injection E as <-. apply OC in A. destruct A as [[<- ->]|[Nj A]].
      * rewrite keqb_sym. apply (UC _ _ _ OT eq_refl).
      * destruct (keqb (fst ej) (fst tmp)) eqn:Q; [|reflexivity]. exfalso. apply Nj. symmetry.
        apply (U _ _ _ _ A OT Q).
    + cbn in *. lia.
  - lia.
  - exists o', n', s'. split; [exact E|]. split; [exact R'|]. intros j A. apply MO in A. apply NL in A. tauto.
Qed.

Lemma rehash_ok n N sz M : pow2 N -> N <= 67108864 -> 0 <= n <= N -> sz < N ->
  forall cnt j olds nf st, j + Z.of_nat cnt = n -> 0 <= j -> rinv n N sz M olds nf st None ->
  (forall i, i < j -> ~ livO olds i) ->
  exists olds' nf' st', rehash hash cnt j n N olds nf st = Ok (olds', nf', st') /\
    rinv n N sz M olds' nf' st' None /\ (forall i, ~ livO olds' i).
Proof.
  intros P L Hn Hsz. induction cnt as [|cnt IH]; intros j olds nf st Hj Hj0 R HD.
  - cbn [rehash]. do 3 eexists. split; [reflexivity|]. split; [exact R|]. intros i LI.
    assert (i < n) by (destruct LI as (f & A & _); apply gnth_Some in A; rewrite (r_len1 _ _ _ _ _ _ _ _ R) in A; lia).
    apply (HD i); [lia|exact LI].
  - cbn [rehash]. pose proof (r_len1 _ _ _ _ _ _ _ _ R) as L1. pose proof (r_len3 _ _ _ _ _ _ _ _ R) as L3.
    destruct (gnth_in olds j) as [f Ef]; [lia|]. rewrite (grd_Some _ _ _ Ef). cbn [bind].
    destruct (iseither f) eqn:Lf; cbn [negb].
    + cbn [bind]. apply IH; [lia|lia|exact R|]. intros i Hi. destruct (Z.eq_dec i j) as [->|NE].
      * intros (f' & A & B). congruence.
      * apply HD. lia.
    + destruct (gnth_in st j) as [c Ec]; [lia|]. rewrite (grd_Some _ _ _ Ec). cbn [bind].
      rewrite gwr_ok by lia. cbn [bind].
      assert (NL : forall i, livO (gupd (A := flag) olds j (fst f, true)) i <-> j <> i /\ livO olds i)
        by (intros i; apply (livO_upd olds j i (fst f)); lia).
      assert (LJ : livO olds j) by (exists f; auto).
      assert (CO : count live (gupd (A := flag) olds j (fst f, true)) = count live olds - 1).
      { rewrite (count_gupd _ _ _ _ _ Ef). unfold live. rewrite Lf. unfold iseither, isdel. cbn.
        rewrite orb_true_r. cbn. lia. }
      destruct R as [_ L2 _ D ME U UC PR CN].
      assert (OC : forall i e, occR (gupd (A := flag) olds j (fst f, true)) nf st i e <-> j <> i /\ occR olds nf st i e).
      { intros i e. unfold occR. rewrite NL. split.
        - intros [[[A B]|A] C].
          + split; [exact A|]. split; auto.
          + split; [|split; auto]. intros <-. apply (D j LJ A).
        - intros [A [B C]]. split; [tauto|exact C]. }
      assert (OJ : occR olds nf st j c) by (split; auto).
      destruct (kick_ok n N sz M P L Hn Hsz (S (length (gupd olds j (fst f, true)))) (gupd olds j (fst f, true)) nf st c)
        as (o' & n' & s' & E & R' & MO).
      * constructor; rewrite ?zlen_gupd; try assumption.
        -- intros i A B. apply NL in A. apply (D i (proj2 A) B).
        -- intros e. rewrite ME. split.
           ++ intros [[i O]|X]; [|discriminate]. destruct (Z.eq_dec j i) as [<-|NE].
              ** right. destruct O as [_ O]. congruence.
              ** left. exists i. apply OC. auto.
           ++ intros [[i O]|X].
              ** apply OC in O. left. exists i. tauto.
              ** injection X as <-. left. eauto.
        -- intros a b ea eb A B Q. apply OC in A. apply OC in B. apply (U _ _ _ _ (proj2 A) (proj2 B) Q).
        -- intros i ei e A X. injection X as <-. apply OC in A. destruct A as [A1 A2].
           destruct (keqb (fst ei) (fst c)) eqn:Q; [|reflexivity]. exfalso. apply A1. symmetry.
           apply (U _ _ _ _ A2 OJ Q).
        -- cbn in *. lia.
      * pose proof (count_le live (gupd olds j (fst f, true))). unfold zlen in *. lia.
      * rewrite E. cbn [bind]. apply IH; [lia|lia|exact R'|]. intros i Hi LI. apply MO in LI. apply NL in LI.
        destruct (Z.eq_dec i j) as [->|NE]; [tauto|]. apply (HD i); [lia|tauto].
Qed.

Definition next_n (n : Z) : Z := if n =? 0 then 4 else n * 2.

Lemma map_gnth {A B} (g : A -> B) l i : gnth (map g l) i = match gnth l i with Some x => Some (g x) | None => None end.
Proof.
  unfold gnth. destruct (i <? 0); [reflexivity|]. rewrite nth_error_map.
  destruct (nth_error l (Z.to_nat i)); reflexivity.
Qed.
Lemma count_map {A B} (g : A -> B) (p : B -> bool) l : count p (map g l) = count (fun x => p (g x)) l.
Proof. induction l as [|x l IH]; cbn; [reflexivity|]. rewrite IH. reflexivity. Qed.
Lemma count_ext {A} (p q : A -> bool) l : (forall x, p x = q x) -> count p l = count q l.
Proof. intros H. induction l as [|x l IH]; cbn; [reflexivity|]. rewrite H, IH. reflexivity. Qed.

Lemma resize_ok h : inv h -> next_n (n_buckets h) <= 67108864 ->
  exists h', kh_resize hash junk h = Ok h' /\ inv h' /\ (forall e, mem h' e <-> mem h e) /\
    n_buckets h' = next_n (n_buckets h) /\ kh_sz h' = kh_sz h /\ n_occupied h' = kh_sz h /\
    n_occupied h' < upper_bound h'.
Proof.
  intros I HN. unfold kh_resize. set (n := n_buckets h) in *.
  assert (Hn0 : 0 <= n). { destruct (inv_n _ I) as [E|E]; fold n in E; [lia|apply pow2_ge in E; lia]. }
  assert (EN : (if negb (n =? 0) then u32 (n * 2) else 4) = next_n n).
  { unfold next_n. destruct (Z.eqb_spec n 0); cbn [negb]; [reflexivity|].
    pose proof (inv_nle _ I). fold n in H. unfold u32, two32. apply Z.mod_small. lia. }
  rewrite EN. set (N := next_n n) in *.
  assert (PN : pow2 N).
  { unfold N, next_n. destruct (Z.eqb_spec n 0) as [E|E]; [apply pow2_4|].
    destruct (inv_n _ I) as [E'|E']; fold n in E'; [contradiction|apply pow2_double, E']. }
  pose proof (pow2_ge _ PN) as N4.
  assert (nN : n <= N) by (unfold N, next_n; destruct (Z.eqb_spec n 0); lia).
  assert (SZ : 0 <= kh_sz h < hash_upper N).
  { pose proof (size_le_occ _ I). split; [lia|]. pose proof (inv_le _ I). rewrite (inv_ub _ I) in H0. fold n in H0.
    destruct (Z.eqb_spec n 0) as [E|E]; [pose proof (hash_upper_lt N N4); lia|].
    assert (hash_upper n < hash_upper N).
    { unfold N, next_n. destruct (Z.eqb_spec n 0); [contradiction|].
      assert (4 <= n) by (destruct (inv_n _ I) as [E'|E']; fold n in E'; [contradiction|apply pow2_ge, E']).
      unfold hash_upper. lia. }
    lia. }
  destruct (Z.geb_spec (kh_sz h) (hash_upper N)); [lia|].
  destruct (Z.gtb_spec N 67108864); [lia|].
  pose proof (inv_kv _ I) as Lkv. pose proof (inv_fl _ I) as Lfl. fold n in Lkv, Lfl.
  set (st := kv h ++ _).
  assert (zlen_zseq : forall a k, zlen (zseq a k) = Z.of_nat k).
  { intros a k. revert a. induction k as [|k IHk]; intros a; [reflexivity|]. cbn [zseq]. rewrite zlen_cons, IHk. lia. }
  assert (Lst : zlen st = N).
  { unfold st. rewrite zlen_app, zlen_map, zlen_zseq. lia. }
  assert (NP : forall i, ~ plc (repeat true (Z.to_nat N)) i).
  { intros i A. unfold plc in A. pose proof (gnth_Some _ _ _ A) as B.
    unfold zlen in B. rewrite repeat_length in B. rewrite gnth_repeat in A by lia. discriminate. }
  assert (STO : forall i, 0 <= i < n -> gnth st i = gnth (kv h) i).
  { intros i Hi. unfold st. apply gnth_app1. lia. }
  assert (OC : forall i e, occR (fl h) (repeat true (Z.to_nat N)) st i e <-> occ h i e).
  { intros i e. unfold occR, occ. split.
    - intros [[(f & A & B)|A] C]; [|destruct (NP _ A)]. exists f. split; [exact A|]. split; [exact B|].
      rewrite <- STO; [exact C|]. apply gnth_Some in A. lia.
    - intros (f & A & B & C). split; [left; exists f; auto|]. rewrite STO; [exact C|]. apply gnth_Some in A. lia. }
  destruct (rehash_ok n N (kh_sz h) (mem h) PN HN (conj Hn0 nN) ltac:(pose proof (hash_upper_lt N N4); lia)
              (Z.to_nat n) 0 (fl h) (repeat true (Z.to_nat N)) st) as (o' & n' & s' & E & R & LO); try lia.
  - constructor; try assumption.
    + unfold zlen. rewrite repeat_length. lia.
    + intros i _ A. apply (NP _ A).
    + intros e. split.
      * intros [i O]. left. exists i. apply OC, O.
      * intros [[i O]|X]; [|discriminate]. exists i. apply OC, O.
    + intros a b ea eb A B Q. apply OC in A. apply OC in B. apply (inv_uniq _ I _ _ _ _ A B Q).
    + discriminate.
    + intros i e A. destruct (NP _ A).
    + rewrite count_repeat. cbn. rewrite (inv_sz _ I). lia.
  - intros i Hi (f & A & _). apply gnth_Some in A. lia.
  - fold n in E. rewrite E. cbn [bind]. eexists. split; [reflexivity|].
    destruct R as [L1 L2 L3 D ME U UC PR CN].
    set (h' := mkH N (kh_sz h) (kh_sz h) (hash_upper N) (map (fun e => (e, false)) n') s').
    assert (OC' : forall i e, occ h' i e <-> occR o' n' s' i e).
    { intros i e. unfold occ, occR, h', plc. cbn [fl kv]. rewrite map_gnth. split.
      - intros (f & A & B & C). split; [|exact C]. right. destruct (gnth n' i) as [b|]; [|discriminate].
        injection A as <-. unfold iseither, isempty, isdel in B. cbn in B. rewrite orb_false_r in B. congruence.
      - intros [[A|A] C]; [destruct (LO _ A)|]. exists (false, false). rewrite A. auto. }
    assert (C0 : count live o' = 0).
    { destruct (Z.eq_dec (count live o') 0) as [Z0|Z0]; [exact Z0|]. exfalso.
      pose proof (count_nonneg live o'). destruct (count_pos_ex live o') as (i & f & A & B); [lia|].
      apply (LO i). exists f. split; [exact A|]. unfold live in B. destruct (iseither f); [discriminate|reflexivity]. }
    assert (CL : count live (map (fun e => (e, false)) n') = kh_sz h).
    { rewrite count_map, (count_ext _ negb); [cbn in CN; lia|]. intros []; reflexivity. }
    assert (CE : count nonempty (map (fun e => (e, false)) n') = kh_sz h).
    { rewrite count_map, (count_ext _ negb); [cbn in CN; lia|]. intros []; reflexivity. }
    split; [constructor; cbn [h' n_buckets kh_sz n_occupied upper_bound fl kv]|].
    + right. exact PN.
    + exact HN.
    + rewrite zlen_map. exact L2.
    + exact L3.
    + symmetry. exact CL.
    + symmetry. exact CE.
    + destruct (Z.eqb_spec N 0); [lia|reflexivity].
    + lia.
    + intros i e O. apply OC' in O. destruct O as [[A|A] C]; [destruct (LO _ A)|].
      eapply reach_mono; [|apply (PR _ _ A C)]. intros j B. unfold full. cbn [h' fl].
      exists (false, false). rewrite map_gnth. unfold plc in B. rewrite B. auto.
    + intros a b ea eb A B Q. apply OC' in A. apply OC' in B. apply (U _ _ _ _ A B Q).
    + split.
      * intros e. rewrite ME. split.
        -- intros [i O]. left. exists i. apply OC', O.
        -- intros [[i O]|X]; [|discriminate]. exists i. apply OC', O.
      * cbn [h' n_buckets kh_sz n_occupied upper_bound]. repeat split; try reflexivity. lia.
Qed.

(** ** inserting *)
Lemma put_loop_run h key T : inv h -> pow2 (n_buckets h) -> 0 <= T < n_buckets h ->
  stops h key (pos (n_buckets h) key T) = true ->
  (forall s, 0 <= s < T -> stops h key (pos (n_buckets h) key s) = false) ->
  forall m t fuel site, Z.of_nat m = T - t -> 0 <= t -> (m < fuel)%nat ->
  (site = n_buckets h \/ exists s f, 0 <= s < T /\ site = pos (n_buckets h) key s /\
      gnth (fl h) site = Some f /\ isempty f = false /\ isdel f = true) ->
  exists site', put_loop keqb fuel h key (pos (n_buckets h) key t) site
    (Z.land (Z.lor (hash key) 1) (n_buckets h - 1)) (pos (n_buckets h) key 0) (n_buckets h - 1)
    = Ok (pos (n_buckets h) key T, site', false) /\
    (site' = n_buckets h \/ exists s f, 0 <= s < T /\ site' = pos (n_buckets h) key s /\
      gnth (fl h) site' = Some f /\ isempty f = false /\ isdel f = true).
Proof.
  intros I P HT HS HN. set (n := n_buckets h) in *.
  induction m as [|m IH]; intros t fuel site Hm Ht Hf HSite.
  - destruct fuel as [|fuel]; [lia|]. cbn [put_loop].
    assert (t = T) by lia. subst t. pose proof (pos_range n key T P) as R.
    destruct (gnth_in (fl h) (pos n key T)) as [f Ef]; [rewrite (inv_fl _ I); exact R|].
    destruct (gnth_in (kv h) (pos n key T)) as [e Ee]; [rewrite (inv_kv _ I); exact R|].
    rewrite (grd_Some _ _ _ Ef). cbn [bind]. rewrite (grd_Some _ _ _ Ee). cbn [bind].
    unfold stops in HS. rewrite Ef, Ee in HS. exists site. split; [|exact HSite].
    destruct (isempty f); [reflexivity|].
    destruct (isdel f); cbn in *; [discriminate|]. rewrite HS. reflexivity.
  - destruct fuel as [|fuel]; [lia|]. cbn [put_loop]. pose proof (pos_range n key t P) as R.
    assert (HS' : stops h key (pos n key t) = false) by (apply HN; lia).
    destruct (gnth_in (fl h) (pos n key t)) as [f Ef]; [rewrite (inv_fl _ I); exact R|].
    destruct (gnth_in (kv h) (pos n key t)) as [e Ee]; [rewrite (inv_kv _ I); exact R|].
    rewrite (grd_Some _ _ _ Ef). cbn [bind]. rewrite (grd_Some _ _ _ Ee). cbn [bind].
    unfold stops in HS'. rewrite Ef, Ee in HS'. destruct (isempty f) eqn:Em; [discriminate|].
    replace (isdel f || negb (keqb (fst e) key)) with true
      by (destruct (isdel f), (keqb (fst e) key); cbn in *; congruence).
    rewrite pos_step; [|exact P|exact (inv_nle _ I)].
    destruct (Z.eqb_spec (pos n key (t + 1)) (pos n key 0)) as [E|E].
    + apply pos_inj in E; try exact P; lia.
    + apply IH; [lia|lia|lia|]. destruct (isdel f) eqn:De; [|exact HSite].
      right. exists t, f. repeat split; auto; lia.
Qed.

Definition same_others (key : K) (h h' : table) : Prop :=
  forall e, keqb (fst e) key = false -> (mem h' e <-> mem h e).

(** claiming bucket x, which is not live and is reached from key *)
Lemma claim_ok h key x fx (v0 : V) occ' : inv h -> n_buckets h <> 0 -> n_occupied h < upper_bound h ->
  gnth (fl h) x = Some fx -> iseither fx = true -> (exists k0, gnth (kv h) x = Some (k0, v0)) ->
  reach (full h) (n_buckets h) key x ->
  (forall e, mem h e -> keqb (fst e) key = false) ->
  occ' = n_occupied h + b2z (isempty fx) ->
  let h' := mkH (n_buckets h) (kh_sz h + 1) occ' (upper_bound h)
              (gupd (A := flag) (fl h) x (false, false)) (gupd (kv h) x (key, v0)) in
  inv h' /\ occ h' x (key, v0) /\ same_others key h h' /\ (forall e, mem h' e -> keqb (fst e) key = true -> e = (key, v0)).
Proof.
  intros I N Room Ef Lf [k0 Ev] RE NM EO h'.
  pose proof (gnth_Some _ _ _ Ef) as Rx. pose proof (gnth_Some _ _ _ Ev) as Rx'.
  assert (OC : forall i e, occ h' i e <-> (x = i /\ e = (key, v0)) \/ (x <> i /\ occ h i e)).
  { intros i e. unfold occ, h'. cbn [fl kv]. rewrite !gnth_gupd by assumption.
    destruct (Z.eqb_spec x i) as [<-|NE].
    - split.
      + intros (f & A & B & C). left. split; congruence.
      + intros [[_ ->]|[A _]]; [|contradiction]. exists (false, false). auto.
    - split; [auto|]. intros [[A _]|[_ A]]; [contradiction|exact A]. }
  assert (FU : forall i, full h i -> full h' i).
  { intros i (f & A & B). unfold full, h'. cbn [fl]. rewrite gnth_gupd by assumption.
    destruct (Z.eqb_spec x i); [exists (false, false); auto|exists f; auto]. }
  assert (NX : forall e, ~ occ h x e).
  { intros e (f & A & B & _). congruence. }
  repeat split.
  - exact (inv_n _ I).
  - exact (inv_nle _ I).
  - cbn. rewrite zlen_gupd. exact (inv_fl _ I).
  - cbn. rewrite zlen_gupd. exact (inv_kv _ I).
  - cbn. rewrite (count_gupd _ _ _ _ _ Ef), (inv_sz _ I). unfold live at 3 4. rewrite Lf. cbn. lia.
  - cbn. rewrite EO, (count_gupd _ _ _ _ _ Ef), (inv_occ _ I). unfold nonempty at 3 4.
    destruct (isempty fx); cbn; lia.
  - exact (inv_ub _ I).
  - cbn. rewrite EO. unfold b2z. destruct (isempty fx); lia.
  - intros i e O. apply OC in O. destruct O as [[<- ->]|[NE O]].
    + apply (reach_mono _ _ _ _ _ FU RE).
    + apply (reach_mono _ _ _ _ _ FU (inv_probe _ I _ _ O)).
  - intros a b ea eb A B Q. apply OC in A. apply OC in B.
    destruct A as [[<- ->]|[Na A]], B as [[<- ->]|[Nb B]].
    + reflexivity.
    + rewrite keqb_sym in Q. cbn in Q. rewrite NM in Q by (exists b; exact B). discriminate.
    + cbn in Q. rewrite NM in Q by (exists a; exact A). discriminate.
    + apply (inv_uniq _ I _ _ _ _ A B Q).
  - apply OC. auto.
  - intros [i O]. apply OC in O. destruct O as [[_ ->]|[_ O]]; [|exists i; exact O].
    cbn in H. rewrite keqb_refl in H. discriminate.
  - intros [i O]. exists i. apply OC. right. split; [|exact O]. intros <-. destruct (NX _ O).
  - intros e [i O] Q. apply OC in O. destruct O as [[_ ->]|[_ O]]; [reflexivity|].
    rewrite NM in Q by (exists i; exact O). discriminate.
Qed.

(** what kh_put achieves *)
Definition put_post (key : K) (h h' : table) (x ret : Z) : Prop :=
  inv h' /\ same_others key h h' /\
  n_occupied h' <= n_occupied h + 1 /\
  (n_buckets h' = n_buckets h \/
   (n_buckets h' = next_n (n_buckets h) /\ upper_bound h <= n_occupied h)) /\
  exists e, occ h' x e /\ keqb (fst e) key = true /\
   ((ret = 0 /\ mem h e) \/
    (ret <> 0 /\ fst e = key /\ (forall e', mem h e' -> keqb (fst e') key = false))).

Lemma put_ok h key : inv h ->
  (upper_bound h <= n_occupied h -> next_n (n_buckets h) <= 67108864) ->
  exists h' x ret, kh_put keqb hash junk h key = Ok (h', x, ret) /\ put_post key h h' x ret.
Proof.
  intros I0 HR.
  assert (G : exists h1, (if n_occupied h >=? upper_bound h then kh_resize hash junk h else Ok h) = Ok h1 /\
     inv h1 /\ (forall e, mem h1 e <-> mem h e) /\ n_occupied h1 < upper_bound h1 /\ n_occupied h1 <= n_occupied h /\
     (n_buckets h1 = n_buckets h \/ (n_buckets h1 = next_n (n_buckets h) /\ upper_bound h <= n_occupied h))).
  { destruct (Z.geb_spec (n_occupied h) (upper_bound h)) as [L|L].
    - destruct (resize_ok h I0 (HR L)) as (h1 & A & B & C & D & E & F & G). exists h1.
      pose proof (size_le_occ _ I0).
      split; [exact A|]. split; [exact B|]. split; [exact C|]. split; [exact G|]. split; [lia|]. right. auto.
    - exists h. split; [reflexivity|]. split; [exact I0|]. split; [tauto|]. split; [exact L|]. split; [lia|]. left. reflexivity. }
  destruct G as (h1 & E1 & I & ME & Room & Occ & HN1). unfold kh_put. rewrite E1. cbn [bind].
  set (n := n_buckets h1) in *.
  assert (N0 : n <> 0).
  { intros E. pose proof (inv_ub _ I) as U. fold n in U. rewrite E in U. cbn in U.
    pose proof (size_le_occ _ I). lia. }
  destruct (inv_n _ I) as [E|P]; [fold n in E; contradiction|]. fold n in P.
  destruct (first_stop h1 key I N0) as (T & HT & HS & HN). fold n in HT, HS, HN.
  pose proof (inv_fl _ I) as Lfl. pose proof (inv_kv _ I) as Lkv. fold n in Lfl, Lkv.
  pose proof (inv_nle _ I) as Nle. fold n in Nle.
  rewrite (pos_0 _ _ P).
  (* the bucket x that is chosen *)
  assert (X : exists x, (do f0 <- grd (fl h1) (pos n key 0);
      (if isempty f0 then Ok (pos n key 0)
           else
             let inc := Z.land (Z.lor (hash key) 1) (n - 1) in
             do (i, site, wrapped) <- put_loop keqb (S (length (fl h1))) h1 key (pos n key 0) n inc (pos n key 0) (n - 1);
             let x := if wrapped : bool then site else n in
             if x =? n then
               do fi <- grd (fl h1) i;
               Ok (if isempty fi && negb (site =? n) then site else i)
             else Ok x)) = Ok x /\
      ((exists e, occ h1 x e /\ keqb (fst e) key = true) \/
       (exists fx, gnth (fl h1) x = Some fx /\ iseither fx = true /\ reach (full h1) n key x /\
          forall e, mem h1 e -> keqb (fst e) key = false))).
  { pose proof (pos_range n key 0 P) as R0. pose proof (pos_range n key T P) as RT.
    destruct (gnth_in (fl h1) (pos n key 0)) as [f0 Ef0]; [lia|].
    destruct (gnth_in (fl h1) (pos n key T)) as [fT EfT]; [lia|].
    destruct (gnth_in (kv h1) (pos n key T)) as [eT EeT]; [lia|].
    assert (FULL : forall s, 0 <= s < T -> full h1 (pos n key s)).
    { intros s Hs. specialize (HN s Hs). unfold stops in HN. pose proof (pos_range n key s P).
      destruct (gnth_in (fl h1) (pos n key s)) as [f Ef]; [lia|].
      destruct (gnth_in (kv h1) (pos n key s)) as [e Ee]; [lia|].
      rewrite Ef, Ee in HN. exists f. split; [exact Ef|]. destruct (isempty f); [discriminate|reflexivity]. }
    assert (ABS : isempty fT = true -> forall e, mem h1 e -> keqb (fst e) key = false).
    { intros Em e [i O]. destruct (keqb (fst e) key) eqn:Q; [|reflexivity].
      pose proof (stop_at_key h1 key T i e I P HT HS HN O Q) as S. fold n in S.
      destruct O as (f' & Ef' & Lf' & _). rewrite <- S in Ef'.
      unfold iseither in Lf'. replace f' with fT in Lf' by congruence. rewrite Em in Lf'. discriminate. }
    rewrite (grd_Some _ _ _ Ef0). cbn [bind].
    destruct (isempty f0) eqn:Em0.
    - exists (pos n key 0). split; [reflexivity|]. right. exists f0. split; [exact Ef0|].
      assert (T = 0).
      { destruct (Z.eq_dec T 0) as [E|E]; [exact E|]. specialize (HN 0 ltac:(lia)). unfold stops in HN.
        rewrite Ef0, Em0 in HN. destruct (gnth (kv h1) (pos n key 0)); discriminate. }
      subst T. split; [unfold iseither; rewrite Em0; reflexivity|]. split.
      + exists 0. split; [lia|]. split; [reflexivity|]. intros; lia.
      + apply ABS. congruence.
    - destruct (put_loop_run h1 key T I P HT HS HN (Z.to_nat T) 0 (S (length (fl h1))) n) as (site & RUN & HSite);
        [lia|lia|unfold zlen in Lfl; lia|left; reflexivity|].
      fold n in RUN. cbv zeta. rewrite RUN. cbn [bind]. rewrite Z.eqb_refl.
      rewrite (grd_Some _ _ _ EfT). cbn [bind]. eexists. split; [reflexivity|].
      destruct (isempty fT) eqn:EmT; cbn [andb].
      + right. destruct HSite as [Es|(s & fs & Hs & Es & Efs & Ems & Des)].
        * fold n in Es. subst site. rewrite Z.eqb_refl. cbn [negb]. exists fT. split; [exact EfT|].
          split; [unfold iseither; rewrite EmT; reflexivity|]. split; [|auto].
          exists T. split; [exact HT|]. split; [reflexivity|exact FULL].
        * fold n in Es. pose proof (pos_range n key s P).
          destruct (Z.eqb_spec site n) as [E|E]; [lia|]. cbn [negb]. exists fs. split; [exact Efs|].
          split; [unfold iseither; rewrite Des; apply orb_true_r|]. split; [|auto].
          exists s. split; [lia|]. split; [congruence|]. intros; apply FULL; lia.
      + left. exists eT. unfold stops in HS. rewrite EfT, EeT, EmT in HS. cbn in HS. apply andb_prop in HS.
        split; [|apply HS]. exists fT. split; [exact EfT|]. split; [|exact EeT].
        unfold iseither. rewrite EmT. destruct (isdel fT); [destruct HS; discriminate|reflexivity]. }
  destruct X as (x & EX & HX).
  match goal with |- context [bind (grd (fl h1) (pos n key 0)) ?k] =>
    assert (SPLIT : bind (grd (fl h1) (pos n key 0)) k = 
      (do x <- Ok x; do fx <- grd (fl h1) x; do kvx <- grd (kv h1) x;
       if isempty fx then
         do fl' <- gwr (A := flag) (fl h1) x (false, false); do kv' <- gwr (kv h1) x (key, snd kvx);
         Ok (mkH n (u32 (kh_sz h1 + 1)) (u32 (n_occupied h1 + 1)) (upper_bound h1) fl' kv', x, 1)
       else if isdel fx then
         do fl' <- gwr (A := flag) (fl h1) x (false, false); do kv' <- gwr (kv h1) x (key, snd kvx);
         Ok (mkH n (u32 (kh_sz h1 + 1)) (n_occupied h1) (upper_bound h1) fl' kv', x, 2)
       else Ok (h1, x, 0)))
  end.
  { rewrite <- EX. destruct (grd (fl h1) (pos n key 0)); reflexivity. }
  rewrite SPLIT. clear SPLIT EX. cbn [bind].
  assert (SB : 0 <= kh_sz h1 + 1 < two32 /\ 0 <= n_occupied h1 + 1 < two32).
  { pose proof (size_le_occ _ I). pose proof (inv_ub _ I) as U. fold n in U.
    destruct (Z.eqb_spec n 0); [contradiction|]. pose proof (hash_upper_lt n (pow2_ge _ P)).
    unfold two32. lia. }
  unfold u32. rewrite (Z.mod_small (kh_sz h1 + 1)) by lia. rewrite (Z.mod_small (n_occupied h1 + 1)) by lia.
  destruct HX as [(e & O & Q)|(fx & Efx & Lfx & RE & NM)].
  - destruct O as (f & Ef & Lf & Ee). rewrite (grd_Some _ _ _ Ef), (grd_Some _ _ _ Ee). cbn [bind].
    unfold iseither in Lf. destruct (isempty f) eqn:Em; [discriminate|]. cbn in Lf. rewrite Lf.
    exists h1, x, 0. split; [reflexivity|]. split; [exact I|]. split; [intros e' _; apply ME|].
    split; [lia|]. split; [exact HN1|]. assert (O : occ h1 x e).
    { exists f. split; [exact Ef|]. split; [unfold iseither; rewrite Em, Lf; reflexivity|exact Ee]. }
    exists e. split; [exact O|]. split; [exact Q|]. left. split; [reflexivity|]. apply ME. exists x. exact O.
  - pose proof (gnth_Some _ _ _ Efx) as Rx.
    destruct (gnth_in (kv h1) x) as [[k0 v0] Ev]; [lia|].
    rewrite (grd_Some _ _ _ Efx), (grd_Some _ _ _ Ev). cbn [bind snd].
    rewrite !gwr_ok by lia. cbn [bind].
    assert (POST : forall oc ret, oc = n_occupied h1 + b2z (isempty fx) -> ret <> 0 ->
      put_post key h (mkH n (kh_sz h1 + 1) oc (upper_bound h1) (gupd (A := flag) (fl h1) x (false, false)) (gupd (kv h1) x (key, v0))) x ret).
    { intros oc ret EO NR.
      destruct (claim_ok h1 key x fx v0 oc I N0 Room Efx Lfx (ex_intro _ k0 Ev) RE NM EO) as (A & B & C & D).
      fold n in A, B, C, D.
      split; [exact A|]. split; [|split; [|split; [exact HN1|]]].
      - intros e He. rewrite (C e He). apply ME.
      - cbn. unfold b2z in EO. destruct (isempty fx); lia.
      - exists (key, v0). split; [exact B|]. split; [apply keqb_refl|]. right. split; [exact NR|]. split; [reflexivity|].
        intros e' M'. apply NM, ME, M'. }
    destruct (isempty fx) eqn:Em.
    + do 3 eexists. split; [reflexivity|]. apply POST; [reflexivity|lia].
    + unfold iseither in Lfx. rewrite Em in Lfx. cbn in Lfx. rewrite Lfx.
      do 3 eexists. split; [reflexivity|]. apply POST; [cbn; lia|lia].
Qed.

(** ** storing the value of a live bucket *)
Lemma set_val_ok h x e v : inv h -> occ h x e ->
  exists h', kh_set_val h x v = Ok h' /\ inv h' /\ same_others (fst e) h h' /\ occ h' x (fst e, v) /\
    n_buckets h' = n_buckets h /\ n_occupied h' = n_occupied h /\ kh_sz h' = kh_sz h.
Proof.
  intros I O. pose proof O as (f & Ef & Lf & Ee). unfold kh_set_val. rewrite (grd_Some _ _ _ Ee). cbn [bind].
  pose proof (gnth_Some _ _ _ Ee) as R. rewrite gwr_ok by exact R. cbn [bind].
  eexists. split; [reflexivity|]. set (h' := mkH _ _ _ _ _ _).
  assert (OC : forall i e', occ h' i e' <-> (x = i /\ e' = (fst e, v)) \/ (x <> i /\ occ h i e')).
  { intros i e'. unfold occ, h'. cbn [fl kv]. rewrite gnth_gupd by exact R. destruct (Z.eqb_spec x i) as [<-|NE].
    - split.
      + intros (f' & A & B & C). left. split; congruence.
      + intros [[_ ->]|[A _]]; [|contradiction]. exists f. auto.
    - split; [auto|]. intros [[A _]|[_ A]]; [contradiction|exact A]. }
  assert (KK : forall i e', occ h' i e' -> exists e'', occ h i e'' /\ fst e'' = fst e').
  { intros i e' O'. apply OC in O'. destruct O' as [[<- ->]|[_ O']]; [exists e; auto|exists e'; auto]. }
  split.
  - constructor; unfold h'; cbn [n_buckets kh_sz n_occupied upper_bound fl kv]; try apply I.
    + rewrite zlen_gupd. apply I.
    + intros i e' O'. destruct (KK _ _ O') as (e'' & A & <-). apply (inv_probe _ I _ _ A).
    + intros a b ea eb A B Q. destruct (KK _ _ A) as (ea' & A1 & A2). destruct (KK _ _ B) as (eb' & B1 & B2).
      apply (inv_uniq _ I _ _ _ _ A1 B1). congruence.
  - split; [|split; [apply OC; auto|auto]].
    intros e' Q. split.
    + intros [i O']. apply OC in O'. destruct O' as [[_ ->]|[_ O']]; [|exists i; exact O'].
      cbn in Q. rewrite keqb_refl in Q. discriminate.
    + intros [i O']. exists i. apply OC. right. split; [|exact O']. intros <-.
      rewrite (occ_inj _ _ _ _ O' O), keqb_refl in Q. discriminate.
Qed.

(** ** removing a live bucket *)
Lemma del_ok h x e : inv h -> occ h x e ->
  exists h', kh_del h x = Ok h' /\ inv h' /\ (forall e', mem h' e' <-> mem h e' /\ keqb (fst e') (fst e) = false) /\
    n_buckets h' = n_buckets h /\ n_occupied h' = n_occupied h.
Proof.
  clear junk.
  intros I O. pose proof (occ_range _ _ _ I O) as R. pose proof O as (f & Ef & Lf & Ee).
  unfold kh_del. replace (n_buckets h <? x) with false by lia. cbn [andb]. destruct (Z.eqb_spec x (n_buckets h)); [lia|]. cbn [negb].
  rewrite (grd_Some _ _ _ Ef). cbn [bind]. rewrite Lf. cbn [negb].
  pose proof (inv_fl _ I) as Lfl.
  rewrite gwr_ok by lia. cbn [bind]. eexists. split; [reflexivity|]. set (h' := mkH _ _ _ _ _ _).
  assert (Em : isempty f = false) by (unfold iseither in Lf; destruct (isempty f); [discriminate|reflexivity]).
  assert (OC : forall i e', occ h' i e' <-> x <> i /\ occ h i e').
  { intros i e'. unfold occ, h'. cbn [fl kv]. rewrite gnth_gupd by lia. destruct (Z.eqb_spec x i) as [<-|NE].
    - split; [|intros [A _]; contradiction]. intros (f' & A & B & C). injection A as <-.
      unfold iseither in B. cbn in B. rewrite orb_true_r in B. discriminate.
    - split; [auto|tauto]. }
  assert (FU : forall i, full h i -> full h' i).
  { intros i (f' & A & B). unfold full, h'. cbn [fl]. rewrite gnth_gupd by lia.
    destruct (Z.eqb_spec x i); [exists (isempty f, true); auto|exists f'; auto]. }
  pose proof (count_pos live (fl h) x f Ef ltac:(unfold live; rewrite Lf; reflexivity)) as CP.
  pose proof (size_le_occ _ I) as SL.
  split.
  - constructor; unfold h'; cbn [n_buckets kh_sz n_occupied upper_bound fl kv]; try apply I.
    + rewrite zlen_gupd. exact Lfl.
    + rewrite (count_gupd _ _ _ _ _ Ef). unfold live at 2 3. rewrite Lf. unfold iseither at 1, isdel. cbn.
      rewrite orb_true_r. cbn. rewrite (inv_sz _ I).
      pose proof (count_le live (fl h)). pose proof (inv_nle _ I). unfold u32, two32.
      rewrite Z.mod_small by lia. lia.
    + rewrite (count_gupd _ _ _ _ _ Ef), (inv_occ _ I). unfold nonempty at 3 4. unfold isempty at 2. cbn. fold (isempty f).
      rewrite Em. cbn. lia.
    + intros i e' O'. apply OC in O'. apply (reach_mono _ _ _ _ _ FU (inv_probe _ I _ _ (proj2 O'))).
    + intros a b ea eb A B Q. apply OC in A. apply OC in B. apply (inv_uniq _ I _ _ _ _ (proj2 A) (proj2 B) Q).
  - split; [|auto]. intros e'. split.
    + intros [i O']. apply OC in O'. destruct O' as [NE O']. split; [exists i; exact O'|].
      destruct (keqb (fst e') (fst e)) eqn:Q; [|reflexivity]. exfalso. apply NE. symmetry.
      apply (inv_uniq _ I _ _ _ _ O' O Q).
    + intros [[i O'] Q]. exists i. apply OC. split; [|exact O']. intros <-.
      rewrite (occ_inj _ _ _ _ O' O), keqb_refl in Q. discriminate.
Qed.
End Proofs.
