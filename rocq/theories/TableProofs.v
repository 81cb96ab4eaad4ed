(** Tables refine finite maps. *)
From Coq Require Import ZifyBool Permutation.
From Verif Require Import Base Arr GArr WordModel WordProofs TupleModel TupleProofs KhashModel KhashProofs TableModel.
Ltac Zify.zify_post_hook ::= Z.div_mod_to_equations.

(** ** enumeration of a hash table *)
Section Enum.
Context {K V : Type}.
Fixpoint ient (k : Z) (fs : list flag) (es : list (K * V)) : list (Z * (K * V)) :=
  match fs, es with
  | f :: fs', e :: es' => if iseither f then ient (k + 1) fs' es' else (k, e) :: ient (k + 1) fs' es'
  | _, _ => []
  end.
Definition ientries (h : khash K V) : list (Z * (K * V)) := ient 0 (fl h) (kv h).
Definition entries (h : khash K V) : list (K * V) := map snd (ientries h).

Fixpoint foldr {S A} (f : A -> S -> res S) (l : list A) (s : S) : res S :=
  match l with [] => Ok s | x :: r => do s <- f x s; foldr f r s end.

Lemma each_from_fold {S} (body : Z -> K * V -> S -> res S) (h : khash K V) :
  zlen (fl h) = zlen (kv h) ->
  forall cnt k s, 0 <= k -> k + Z.of_nat cnt = zlen (fl h) ->
  kh_each_from cnt h k body s =
  foldr (fun p s => body (fst p) (snd p) s) (ient k (skipn (Z.to_nat k) (fl h)) (skipn (Z.to_nat k) (kv h))) s.
Proof.
  intros L. induction cnt as [|cnt IH]; intros k s Hk Hc.
  - cbn. rewrite skipn_all2 by (unfold zlen in *; lia). reflexivity.
  - cbn [kh_each_from].
    destruct (gnth_in (fl h) k) as [f Ef]; [lia|]. destruct (gnth_in (kv h) k) as [e Ee]; [lia|].
    assert (SK : forall A (l : list A) x, gnth l k = Some x -> skipn (Z.to_nat k) l = x :: skipn (Z.to_nat (k + 1)) l).
    { intros A l x E. pose proof (gnth_Some _ _ _ E) as R. rewrite (split_gnth _ _ _ E) at 1.
      rewrite skipn_app, skipn_all2 by (rewrite firstn_length; unfold zlen in R; lia).
      rewrite firstn_length. unfold zlen in R. replace (Z.to_nat k - Nat.min (Z.to_nat k) (length l))%nat with O by lia.
      cbn [app]. rewrite skipn_O. f_equal. replace (Z.to_nat (k + 1)) with (Datatypes.S (Z.to_nat k)) by lia. reflexivity. }
    rewrite (SK _ _ _ Ef), (SK _ _ _ Ee), (grd_Some _ _ _ Ef). cbn [bind ient].
    destruct (iseither f); cbn [negb].
    + cbn [bind]. rewrite IH by lia. reflexivity.
    + rewrite (grd_Some _ _ _ Ee). cbn [bind foldr fst snd]. destruct (body k e s) as [s'| |]; try reflexivity.
      cbn [bind]. apply IH; lia.
Qed.
Lemma each_fold {S} (body : Z -> K * V -> S -> res S) (h : khash K V) s :
  zlen (fl h) = n_buckets h -> zlen (kv h) = n_buckets h ->
  kh_each h body s = foldr (fun p s => body (fst p) (snd p) s) (ientries h) s.
Proof.
  intros A B. unfold kh_each. pose proof (zlen_nonneg (fl h)). rewrite each_from_fold by lia. reflexivity.
Qed.
Lemma ient_In k fs es i e : In (i, e) (ient k fs es) <->
  exists f, gnth fs (i - k) = Some f /\ iseither f = false /\ gnth es (i - k) = Some e.
Proof.
  revert k es. induction fs as [|f fs IH]; intros k es.
  - cbn [ient In]. split; [contradiction|]. intros (f & A & _). apply gnth_Some in A. unfold zlen in A. cbn [length] in A. lia.
  - destruct es as [|e0 es].
    + cbn [ient In]. split; [contradiction|]. intros (f' & _ & _ & A). apply gnth_Some in A. unfold zlen in A. cbn [length] in A. lia.
    + assert (C : forall A (x : A) l j, gnth (x :: l) j = if j =? 0 then Some x else gnth l (j - 1)).
      { intros A x l j. unfold gnth. destruct (Z.ltb_spec j 0).
        - destruct (Z.eqb_spec j 0); [lia|]. destruct (Z.ltb_spec (j - 1) 0); [reflexivity|lia].
        - destruct (Z.eqb_spec j 0); [subst; reflexivity|]. destruct (Z.ltb_spec (j - 1) 0); [lia|].
          replace (Z.to_nat j) with (Datatypes.S (Z.to_nat (j - 1))) by lia. reflexivity. }
      cbn [ient]. rewrite !C.
      assert (REC : In (i, e) (ient (k + 1) fs es) <->
        exists f, gnth fs (i - k - 1) = Some f /\ iseither f = false /\ gnth es (i - k - 1) = Some e).
      { rewrite IH. replace (i - (k + 1)) with (i - k - 1) by lia. reflexivity. }
      destruct (Z.eqb_spec (i - k) 0) as [Z0|Z0].
      * assert (NR : ~ In (i, e) (ient (k + 1) fs es)).
        { rewrite REC. intros (f' & A & _). apply gnth_Some in A. lia. }
        destruct (iseither f) eqn:Lf.
        -- split; [tauto|]. intros (f' & A & B & _). congruence.
        -- split.
           ++ intros [E|E]; [|contradiction]. exists f. split; [reflexivity|]. split; [exact Lf|]. congruence.
           ++ intros (f' & A & B & D). left. replace i with k by lia. congruence.
      * destruct (iseither f) eqn:Lf; [exact REC|]. cbn [In]. rewrite REC. split.
        -- intros [E|E]; [|exact E]. injection E as -> ->. lia.
        -- auto.
Qed.
Lemma ient_sorted k fs es : forall i e, In (i, e) (ient k fs es) -> k <= i.
Proof. intros i e H. apply ient_In in H. destruct H as (f & A & _). apply gnth_Some in A. lia. Qed.
Lemma ient_NoDup k fs es : NoDup (map fst (ient k fs es)).
Proof.
  revert k es. induction fs as [|f fs IH]; intros k es; [constructor|].
  destruct es as [|e es]; [constructor|]. cbn [ient]. destruct (iseither f); [apply IH|].
  cbn [map fst]. constructor; [|apply IH]. intros H. apply in_map_iff in H. destruct H as ((i & e') & A & B).
  apply ient_sorted in B. cbn in A. lia.
Qed.
Lemma ient_len k fs es : zlen fs = zlen es -> zlen (ient k fs es) = count live fs.
Proof.
  revert k es. induction fs as [|f fs IH]; intros k es H; [reflexivity|].
  destruct es as [|e es]; [rewrite zlen_cons, zlen_nil in H; pose proof (zlen_nonneg fs); lia|].
  rewrite !zlen_cons in H. cbn [ient count]. unfold live at 1. destruct (iseither f); cbn [negb b2z].
  - rewrite IH by lia. lia.
  - rewrite zlen_cons, IH by lia. lia.
Qed.
Lemma ientries_occ h i e : In (i, e) (ientries h) <-> occ h i e.
Proof. unfold ientries. rewrite ient_In, Z.sub_0_r. reflexivity. Qed.
Lemma entries_mem h e : In e (entries h) <-> mem h e.
Proof.
  unfold entries. rewrite in_map_iff. split.
  - intros ((i & e') & <- & H). exists i. apply ientries_occ, H.
  - intros [i O]. exists (i, e). split; [reflexivity|]. apply ientries_occ, O.
Qed.
Lemma foldr_app {S A} (f : A -> S -> res S) l1 l2 s : foldr f (l1 ++ l2) s = (do s <- foldr f l1 s; foldr f l2 s).
Proof. revert s. induction l1 as [|x l1 IH]; intros s; [reflexivity|]. cbn. destruct (f x s); cbn; auto. Qed.
Lemma foldr_snd {S} (body : K * V -> S -> res S) (h : khash K V) s :
  foldr (fun (p : Z * (K * V)) s => body (snd p) s) (ientries h) s = foldr body (entries h) s.
Proof.
  unfold entries. generalize (ientries h). intros l. revert s.
  induction l as [|p l IH]; intros s; [reflexivity|]. cbn. destruct (body (snd p) s); cbn; auto.
Qed.
End Enum.

(** ** tables of words *)
Definition fmap := Z -> option Z.
(** the table denotes the finite map m *)
Definition denotes (uniq : Z -> Z) (t : table) (m : fmap) : Prop :=
  inv Z.eqb (pn_hash uniq) t /\ forall k v, m k = Some v <-> mem t (k, v).

Section Ops.
Variable uniq : Z -> Z.
Notation inv' := (inv Z.eqb (pn_hash uniq)).
Notation den := (denotes uniq).

Lemma zeq_trans a b c : (a =? b) = true -> (b =? c) = true -> (a =? c) = true.
Proof. lia. Qed.
Lemma zeq_compat a b : (a =? b) = true -> pn_hash uniq a = pn_hash uniq b.
Proof. intros H. apply Z.eqb_eq in H. congruence. Qed.

(** how large a table may be before the next insertion could outgrow the model *)
Definition limit : Z := 16777216.
Lemma room (t : table) : inv' t -> n_occupied t < limit -> upper_bound t <= n_occupied t ->
  next_n (n_buckets t) <= 67108864.
Proof.
  intros I H L. rewrite (inv_ub _ _ _ I) in L. unfold next_n. destruct (Z.eqb_spec (n_buckets t) 0); [lia|].
  unfold hash_upper, limit in *. lia.
Qed.

Lemma entries_NoDup (t : table) : inv' t -> NoDup (map fst (entries t)).
Proof.
  intros I. unfold entries. rewrite map_map.
  assert (H : forall p q, In p (ientries t) -> In q (ientries t) -> fst (snd p) = fst (snd q) -> p = q).
  { intros [i ei] [j ej] A B E. apply ientries_occ in A. apply ientries_occ in B. cbn in E.
    assert (i = j) by (apply (inv_uniq _ _ _ I _ _ _ _ A B), Z.eqb_eq, E). subst j.
    rewrite (occ_inj _ _ _ _ A B). reflexivity. }
  pose proof (ient_NoDup 0 (fl t) (kv t)) as N. fold (ientries t) in N.
  revert H N. generalize (ientries t). intros l H N. induction l as [|p l IH]; [constructor|].
  cbn in *. inversion N as [|? ? N1 N2]; subst. constructor.
  - intros C. apply in_map_iff in C. destruct C as (q & E & Q).
    apply N1. assert (q = p) by (apply H; auto). subst q. apply in_map, Q.
  - apply IH; [|exact N2]. intros. apply H; auto.
Qed.
Lemma entries_len (t : table) : inv' t -> zlen (entries t) = kh_sz t.
Proof.
  intros I. unfold entries. rewrite zlen_map. unfold ientries.
  rewrite ient_len by (rewrite (inv_fl _ _ _ I), (inv_kv _ _ _ I); reflexivity).
  symmetry. apply (inv_sz _ _ _ I).
Qed.
Lemma den_entries t m : den t m -> forall k v, m k = Some v <-> In (k, v) (entries t).
Proof. intros [I H] k v. rewrite H, entries_mem. reflexivity. Qed.
Lemma den_ext t m m' : den t m -> (forall k, m k = m' k) -> den t m'.
Proof. intros [I H] E. split; [exact I|]. intros k v. rewrite <- E. apply H. Qed.

Lemma den_empty : den table_empty (fun _ => None).
Proof.
  split; [apply inv_empty|]. intros k v. split; [discriminate|]. intros [i (f & A & _)].
  cbn in A. rewrite gnth_None in A by (intros [? L]; rewrite zlen_nil in L; lia). discriminate.
Qed.

Lemma at_den t m k : den t m -> table_at uniq t k = Ok (match m k with Some v => v | None => PN_NIL end).
Proof.
  intros [I H]. unfold table_at.
  destruct (get_ok Z.eqb (pn_hash uniq) Z.eqb_refl Z.eqb_sym zeq_trans zeq_compat t k I)
    as [(i & e & O & Q & G)|(N & G)]; rewrite G; cbn [bind].
  - pose proof (occ_range _ _ _ _ _ I O). destruct (Z.eqb_spec i (n_buckets t)); [lia|]. cbn [negb].
    destruct O as (f & Ef & Lf & Ee). rewrite (grd_Some _ _ _ Ee). cbn [bind].
    apply Z.eqb_eq in Q. destruct e as [k' v]. cbn in Q. subst k'.
    rewrite (proj2 (H k v)); [reflexivity|]. exists i, f. auto.
  - rewrite Z.eqb_refl. cbn. destruct (m k) as [v|] eqn:E; [|reflexivity].
    apply H in E. apply N in E. cbn in E. lia.
Qed.

Definition upd_map (m : fmap) (k v : Z) : fmap := fun k' => if k' =? k then Some v else m k'.
Definition del_map (m : fmap) (k : Z) : fmap := fun k' => if k' =? k then None else m k'.

Lemma put_den junk t m k v : den t m -> n_occupied t < limit ->
  exists t', table_put uniq junk t k v = Ok t' /\ den t' (upd_map m k v) /\ n_occupied t' <= n_occupied t + 1.
Proof.
  intros [I H] L. unfold table_put.
  destruct (put_ok Z.eqb (pn_hash uniq) Z.eqb_refl Z.eqb_sym zeq_trans zeq_compat junk t k I (room t I L))
    as (t1 & x & r & E & I1 & SO & OC & _ & e & O & Q & _).
  rewrite E. cbn [bind].
  destruct (set_val_ok Z.eqb (pn_hash uniq) Z.eqb_refl t1 x e v I1 O) as (t2 & E2 & I2 & SO2 & O2 & _ & OC2 & _).
  rewrite E2. exists t2. split; [reflexivity|]. split; [|lia]. split; [exact I2|].
  apply Z.eqb_eq in Q. intros k' v'. unfold upd_map. destruct (Z.eqb_spec k' k) as [->|N].
  - split.
    + intros X. injection X as ->. exists x. rewrite Q in O2. exact O2.
    + intros [j Oj]. rewrite Q in O2.
      assert (j = x) by (apply (inv_uniq _ _ _ I2 _ _ _ _ Oj O2), Z.eqb_refl). subst j.
      pose proof (occ_inj _ _ _ _ Oj O2). congruence.
  - rewrite H. rewrite (SO2 (k', v')) by (cbn; lia). rewrite (SO (k', v')) by (cbn; lia). reflexivity.
Qed.

Lemma remove_den t m k : den t m ->
  exists t', table_remove uniq t k = Ok t' /\ den t' (del_map m k) /\ n_occupied t' = n_occupied t.
Proof.
  intros [I H]. unfold table_remove.
  destruct (get_ok Z.eqb (pn_hash uniq) Z.eqb_refl Z.eqb_sym zeq_trans zeq_compat t k I)
    as [(i & e & O & Q & G)|(N & G)]; rewrite G; cbn [bind].
  - pose proof (occ_range _ _ _ _ _ I O). destruct (Z.eqb_spec i (n_buckets t)); [lia|]. cbn [negb].
    destruct (del_ok Z.eqb (pn_hash uniq) Z.eqb_refl t i e I O) as (t' & E & I' & M & _ & OC).
    exists t'. split; [exact E|]. split; [|exact OC]. split; [exact I'|].
    intros k' v'. rewrite M. unfold del_map. apply Z.eqb_eq in Q. cbn. rewrite Q.
    destruct (Z.eqb_spec k' k).
    + split; [discriminate|]. intros [_ X]. discriminate.
    + rewrite H. tauto.
  - rewrite Z.eqb_refl. cbn. exists t. split; [reflexivity|]. split; [|reflexivity]. split; [exact I|].
    intros k' v'. unfold del_map. destruct (Z.eqb_spec k' k) as [->|NE]; [|apply H]. split; [discriminate|].
    intros M. apply N in M. cbn in M. lia.
Qed.

(** inserting a list of entries *)
Definition put_list (l : list (Z * Z)) (m : fmap) : fmap :=
  fold_left (fun m e => upd_map m (fst e) (snd e)) l m.
Definition put_all junk (l : list (Z * Z)) (t : table) : res table :=
  foldr (fun e t => table_put uniq junk t (fst e) (snd e)) l t.
Lemma put_all_den junk l : forall t m, den t m -> n_occupied t + zlen l <= limit ->
  exists t', put_all junk l t = Ok t' /\ den t' (put_list l m) /\ n_occupied t' <= n_occupied t + zlen l.
Proof.
  induction l as [|[k v] l IH]; intros t m D L.
  - exists t. split; [reflexivity|]. split; [exact D|]. rewrite zlen_nil. lia.
  - rewrite zlen_cons in *. pose proof (zlen_nonneg l).
    destruct (put_den junk t m k v D) as (t1 & E & D1 & O1); [lia|].
    destruct (IH t1 _ D1) as (t2 & E2 & D2 & O2); [lia|].
    exists t2. cbn [put_all foldr fst snd]. rewrite E. cbn [bind]. split; [exact E2|]. split; [exact D2|lia].
Qed.
Lemma put_list_other l : forall m k, ~ In k (map fst l) -> put_list l m k = m k.
Proof.
  induction l as [|[k v] l IH]; intros m k' H; [reflexivity|]. cbn in *. unfold put_list in *. cbn [fold_left fst snd].
  rewrite IH by tauto. unfold upd_map. destruct (Z.eqb_spec k' k); [subst; tauto|reflexivity].
Qed.
Lemma put_list_In l : forall m k v, NoDup (map fst l) -> In (k, v) l -> put_list l m k = Some v.
Proof.
  induction l as [|[k v] l IH]; intros m k' v' N H; [contradiction|]. cbn in N. inversion N as [|? ? N1 N2]; subst.
  unfold put_list in *. cbn [fold_left fst snd]. destruct H as [E|E].
  - injection E as -> ->. fold (put_list l (upd_map m k' v')). rewrite put_list_other by exact N1.
    unfold upd_map. rewrite Z.eqb_refl. reflexivity.
  - apply IH; assumption.
Qed.
Lemma put_list_None l m k : put_list l m k = None -> m k = None.
Proof.
  revert m. induction l as [|[k0 v0] l IH]; intros m H; [exact H|]. unfold put_list in *. cbn [fold_left fst snd] in H.
  apply IH in H. unfold upd_map in H. destruct (k =? k0); [discriminate|exact H].
Qed.

(** the fresh table of clone and slice *)
Lemma fresh_den junk : exists t, kh_resize (pn_hash uniq) junk table_empty = Ok t /\
  den t (fun _ => None) /\ n_occupied t = 0.
Proof.
  destruct (resize_ok Z.eqb (pn_hash uniq) Z.eqb_refl Z.eqb_sym zeq_trans zeq_compat junk table_empty) as (t & E & I & M & _ & _ & O & _).
  - apply inv_empty.
  - cbn. lia.
  - exists t. split; [exact E|]. split; [|exact O]. split; [exact I|]. intros k v. rewrite M.
    pose proof den_empty as [_ D]. apply D.
Qed.

Lemma foldr_ext {S A} (f g : A -> S -> res S) l s : (forall x s, f x s = g x s) -> foldr f l s = foldr g l s.
Proof. intros H. revert s. induction l as [|x l IH]; intros s; [reflexivity|]. cbn. rewrite H. destruct (g x s); cbn; auto. Qed.

Lemma clone_den junk t m : den t m -> n_occupied t <= limit ->
  exists t', table_clone uniq junk t = Ok t' /\ den t' m /\ n_occupied t' <= n_occupied t.
Proof.
  intros D L. pose proof D as [I H]. unfold table_clone. destruct (fresh_den junk) as (t0 & E0 & D0 & O0).
  rewrite E0. cbn [bind]. rewrite each_fold by (apply I).
  rewrite (foldr_snd (fun en t2 => do (t2, key, _) <- kh_put Z.eqb (pn_hash uniq) junk t2 (fst en); kh_set_val t2 key (snd en))).
  pose proof (entries_len t I) as EL. pose proof (size_le_occ _ _ _ I) as SL.
  destruct (put_all_den junk (entries t) t0 _ D0) as (t' & E & D' & O'); [lia|].
  exists t'. split; [exact E|]. split; [|lia]. apply (den_ext _ _ _ D'). intros k.
  pose proof (entries_NoDup t I) as ND.
  destruct (m k) as [v|] eqn:Em.
  - apply (den_entries _ _ D) in Em. apply put_list_In; assumption.
  - rewrite put_list_other; [reflexivity|]. intros C. apply in_map_iff in C. destruct C as ((k' & v) & E' & C').
    cbn in E'. subst k'. apply (den_entries _ _ D) in C'. congruence.
Qed.
End Ops.
