(** Properties C17, C18: sorting. *)
From Coq Require Import ZifyBool Permutation.
From Verif Require Import Base WordModel WordProofs Arr TupleModel TupleProofs PropTuple2 SortModel SortProofs.
Ltac Zify.zify_post_hook ::= Z.div_mod_to_equations.

Lemma rearr_contents t m : wf t -> rearr 0 (t_len t - 1) (t_mem t) m ->
  wf (mkT (t_len t) (t_alloc t) m) /\ Permutation (contents (mkT (t_len t) (t_alloc t) m)) (contents t).
Proof.
  intros [H1 [H2 H3]] [P [L F]]. split; [unfold wf; cbn [t_len t_alloc t_mem]; lia|].
  unfold contents. cbn [t_len t_mem].
  assert (D : zdrop (t_len t) m = zdrop (t_len t) (t_mem t)).
  { apply znth_ext; [rewrite !zlen_zdrop; lia|]. intros i Hi. rewrite zlen_zdrop in Hi by lia.
    rewrite !znth_zdrop by lia. apply F; lia. }
  rewrite <- (ztake_zdrop (t_len t) m), <- (ztake_zdrop (t_len t) (t_mem t)), D in P.
  apply Permutation_app_inv_r in P. exact P.
Qed.

(** ** C17: sort terminates and returns a permutation, for every comparison
    (including blocks that are inconsistent or have side effects); the receiver
    is not changed by [sort] because it works on a clone. *)
Theorem C17_sort_permutation : forall S uniq e t (c : cmpmode S) s, wf t -> 1 <= t_len t ->
  exists s' t', (forall fuel, (Z.to_nat (t_len t) + 1 <= fuel)%nat -> tuple_sort uniq e t c fuel s = Ok (s', t')) /\
    Permutation (contents t') (contents t).
Proof.
  intros S uniq e t c s W Hl. pose proof W as [H1 [H2 H3]].
  destruct (tuple_clone_ok e t W) as [d [Ed [Wd [Ld [Ad [Md Cd]]]]]]. unfold tuple_sort. rewrite Ed. cbn [bind].
  rewrite u32_small by lia.
  destruct (sort_internal_ok uniq c (Z.to_nat (t_len t) + 1)%nat s (t_mem d) 0 (t_len t - 1)) as [s' [m' [E R]]]; try lia.
  exists s', (mkT (t_len d) (t_alloc d) m'). split.
  - intros fuel Hf. rewrite (sort_internal_fuel uniq c _ _ _ _ _ fuel _ Hf E). reflexivity.
  - rewrite <- Cd. rewrite <- Ld in R. apply (rearr_contents d m' Wd R).
Qed.
Print Assumptions C17_sort_permutation.
Theorem C17_ins_sort_permutation : forall S uniq t (c : cmpmode S) s, wf t ->
  exists s' t', (forall fuel, (Z.to_nat (t_len t) + 1 <= fuel)%nat -> tuple_ins_sort uniq t c fuel s = Ok (s', t')) /\
    Permutation (contents t') (contents t).
Proof.
  intros S uniq t c s W. pose proof W as [H1 [H2 H3]]. unfold tuple_ins_sort, MAX_INS_SORT.
  destruct (t_len t <? 10) eqn:E0.
  - destruct (Z.eq_dec (t_len t) 0) as [Z0|N0].
    + rewrite Z0. cbn. exists s, t. destruct t. cbn in *. subst. split; [reflexivity|reflexivity].
    + destruct (ins_outer_ok uniq c (Z.to_nat (t_len t - 1)) 1 s (t_mem t)) as [s' [m' [E R]]]; [lia|].
      replace (Z.of_nat 1 + Z.of_nat (Z.to_nat (t_len t - 1)) - 1) with (t_len t - 1) in R by lia.
      exists s', (mkT (t_len t) (t_alloc t) m'). rewrite E. split; [reflexivity|]. apply (rearr_contents t m' W R).
  - rewrite u32_small by lia.
    destruct (sort_internal_ok uniq c (Z.to_nat (t_len t) + 1)%nat s (t_mem t) 0 (t_len t - 1)) as [s' [m' [E R]]]; try lia.
    exists s', (mkT (t_len t) (t_alloc t) m'). split.
    + intros fuel Hf. rewrite (sort_internal_fuel uniq c _ _ _ _ _ fuel _ Hf E). reflexivity.
    + apply (rearr_contents t m' W R).
Qed.
Print Assumptions C17_ins_sort_permutation.
(** Finding: sorting an empty tuple computes the last index 0-1 = 2^32-1 and reads outside it *)
Theorem C17_sort_empty_refuted : forall S uniq e t (c : cmpmode S) s fuel, wf t -> t_len t = 0 ->
  tuple_sort uniq e t c (Datatypes.S fuel) s = UB.
Proof.
  intros S uniq e t c s fuel W H0. destruct (tuple_clone_ok e t W) as [d [Ed [Wd [Ld [Ad [Md Cd]]]]]].
  unfold tuple_sort. rewrite Ed. cbn [bind]. rewrite H0. change (u32 (0 - 1)) with 4294967295. cbn [sort_internal].
  change (0 <? 4294967295) with true. change (0 + (4294967295 - 0) / 2) with 2147483647. cbn beta iota.
  rewrite rd_ub by lia. reflexivity.
Qed.
Print Assumptions C17_sort_empty_refuted.

(** ** C18: order *)
(** [l] is ordered by [R]: every earlier element is related to every later one *)
Definition ordered (R : Z -> Z -> Prop) (l : list Z) : Prop :=
  forall i j x y, (i < j)%nat -> nth_error l i = Some x -> nth_error l j = Some y -> R x y.

Lemma ord_ordered R t m : 0 <= t_len t <= zlen m -> ord R 0 (t_len t - 1) m ->
  ordered R (contents (mkT (t_len t) (t_alloc t) m)).
Proof.
  intros HL H i j x y Hij Hi Hj. unfold contents in *. cbn [t_len t_mem] in *.
  assert (Lj : (j < length (ztake (t_len t) m))%nat) by (apply nth_error_Some; rewrite Hj; discriminate).
  pose proof (zlen_ztake (t_len t) m HL) as LZ. unfold zlen in LZ.
  apply (nth_error_nth _ _ 0) in Hi. apply (nth_error_nth _ _ 0) in Hj. subst x y.
  specialize (H (Z.of_nat i) (Z.of_nat j) ltac:(lia) ltac:(lia)).
  rewrite <- (znth_ztake m (t_len t) (Z.of_nat i)) in H by lia.
  rewrite <- (znth_ztake m (t_len t) (Z.of_nat j)) in H by lia.
  unfold znth in H. rewrite !Nat2Z.id in H. exact H.
Qed.

Section General.
Variables (uniq : Z -> Z) (R : Z -> Z -> Prop) (c : cmpmode unit).
Hypothesis R_trans : forall x y z, R x y -> R y z -> R x z.
Hypothesis c_full : c <> CmpNil.
Hypothesis front_R : forall x p, snd (to_front uniq c x p tt) = true -> R x p.
Hypothesis back_R : forall x p, snd (to_front uniq c x p tt) = false -> R p x.
Lemma sort_general e t : wf t -> 1 <= t_len t ->
  exists t', (forall fuel, (Z.to_nat (t_len t) + 1 <= fuel)%nat -> tuple_sort uniq e t c fuel tt = Ok (tt, t')) /\
    Permutation (contents t') (contents t) /\ ordered R (contents t').
Proof using R_trans c_full front_R back_R.
  intros W Hl. pose proof W as [H1 [H2 H3]].
  destruct (tuple_clone_ok e t W) as [d [Ed [Wd [Ld [Ad [Md Cd]]]]]]. unfold tuple_sort. rewrite Ed. cbn [bind].
  rewrite u32_small by lia.
  destruct (sort_internal_sorted uniq R R_trans c c_full front_R back_R (Z.to_nat (t_len t) + 1)%nat tt (t_mem d) 0 (t_len t - 1))
    as [s' [m' [E [Rr O]]]]; try lia. destruct s'.
  exists (mkT (t_len d) (t_alloc d) m'). rewrite <- Ld in *. split; [|split].
  - intros fuel Hf. rewrite (sort_internal_fuel uniq c _ _ _ _ _ fuel _ Hf E). reflexivity.
  - rewrite <- Cd. apply (rearr_contents d m' Wd Rr).
  - apply ord_ordered; [|exact O]. destruct Rr as [_ [L _]]. lia.
Qed.
Lemma big_ins_sort_general t : wf t -> 10 <= t_len t ->
  exists t', (forall fuel, (Z.to_nat (t_len t) + 1 <= fuel)%nat -> tuple_ins_sort uniq t c fuel tt = Ok (tt, t')) /\
    Permutation (contents t') (contents t) /\ ordered R (contents t').
Proof using R_trans c_full front_R back_R.
  intros W Hl. pose proof W as [H1 [H2 H3]]. unfold tuple_ins_sort, MAX_INS_SORT.
  destruct (t_len t <? 10) eqn:E0; [lia|]. rewrite u32_small by lia.
  destruct (sort_internal_sorted uniq R R_trans c c_full front_R back_R (Z.to_nat (t_len t) + 1)%nat tt (t_mem t) 0 (t_len t - 1))
    as [s' [m' [E [Rr O]]]]; try lia. destruct s'.
  exists (mkT (t_len t) (t_alloc t) m'). split; [|split].
  - intros fuel Hf. rewrite (sort_internal_fuel uniq c _ _ _ _ _ fuel _ Hf E). reflexivity.
  - apply (rearr_contents t m' W Rr).
  - apply ord_ordered; [|exact O]. destruct Rr as [_ [L _]]. lia.
Qed.
End General.
Section GeneralIns.
Variables (uniq : Z -> Z) (R : Z -> Z -> Prop) (c : cmpmode unit).
Hypothesis R_trans : forall x y z, R x y -> R y z -> R x z.
Hypothesis keep_R : forall a b, snd (out_of_order uniq c a b tt) = false -> R a b.
Hypothesis swap_R : forall a b, snd (out_of_order uniq c a b tt) = true -> R b a.
Lemma small_ins_sort_general t : wf t -> t_len t < 10 ->
  exists t', (forall fuel, tuple_ins_sort uniq t c fuel tt = Ok (tt, t')) /\
    Permutation (contents t') (contents t) /\ ordered R (contents t').
Proof using R_trans keep_R swap_R.
  intros W Hl. pose proof W as [H1 [H2 H3]]. unfold tuple_ins_sort, MAX_INS_SORT.
  destruct (t_len t <? 10) eqn:E0; [|lia].
  destruct (Z.eq_dec (t_len t) 0) as [Z0|N0].
  - rewrite Z0. exists t. destruct t as [len alloc mem]. cbn [t_len t_alloc t_mem] in *. subst len. split; [reflexivity|].
    split; [reflexivity|]. intros i j x y _ Hi _. destruct i; discriminate.
  - destruct (ins_outer_sorted uniq R R_trans c keep_R swap_R (Z.to_nat (t_len t - 1)) 1 tt (t_mem t)) as [s' [m' [E [Rr O]]]]; [lia|lia| |].
    { intros i j Hi Hj. lia. }
    replace (Z.of_nat 1 + Z.of_nat (Z.to_nat (t_len t - 1)) - 1) with (t_len t - 1) in * by lia. destruct s'.
    exists (mkT (t_len t) (t_alloc t) m'). rewrite E. split; [reflexivity|]. split; [apply (rearr_contents t m' W Rr)|].
    apply ord_ordered; [|exact O]. destruct Rr as [_ [L _]]. lia.
Qed.
End GeneralIns.

(** sort(true) / sort(false): ascending / descending by the raw unsigned word *)
Theorem C18_sort_true_false_by_word : forall uniq e t, wf t -> 1 <= t_len t ->
  (exists t', (forall fuel, (Z.to_nat (t_len t) + 1 <= fuel)%nat -> tuple_sort uniq e t CmpTrue fuel tt = Ok (tt, t')) /\
    Permutation (contents t') (contents t) /\ ordered Z.le (contents t')) /\
  (exists t', (forall fuel, (Z.to_nat (t_len t) + 1 <= fuel)%nat -> tuple_sort uniq e t CmpFalse fuel tt = Ok (tt, t')) /\
    Permutation (contents t') (contents t) /\ ordered Z.ge (contents t')).
Proof.
  intros uniq e t W Hl. split; apply sort_general; try assumption; try discriminate; cbn; intros; lia.
Qed.
Print Assumptions C18_sort_true_false_by_word.
Theorem C18_ins_sort_true_false_by_word : forall uniq t, wf t ->
  (exists t', (forall fuel, (Z.to_nat (t_len t) + 1 <= fuel)%nat -> tuple_ins_sort uniq t CmpTrue fuel tt = Ok (tt, t')) /\
    Permutation (contents t') (contents t) /\ ordered Z.le (contents t')) /\
  (exists t', (forall fuel, (Z.to_nat (t_len t) + 1 <= fuel)%nat -> tuple_ins_sort uniq t CmpFalse fuel tt = Ok (tt, t')) /\
    Permutation (contents t') (contents t) /\ ordered Z.ge (contents t')).
Proof.
  intros uniq t W. destruct (Z_lt_le_dec (t_len t) 10) as [L|L]; split.
  - destruct (small_ins_sort_general uniq Z.le CmpTrue) with (t := t) as [t' [E [P O]]]; try assumption; try (cbn; intros; lia).
    exists t'. auto.
  - destruct (small_ins_sort_general uniq Z.ge CmpFalse) with (t := t) as [t' [E [P O]]]; try assumption; try (cbn; intros; lia).
    exists t'. auto.
  - apply big_ins_sort_general; try assumption; try discriminate; cbn; intros; lia.
  - apply big_ins_sort_general; try assumption; try discriminate; cbn; intros; lia.
Qed.
Print Assumptions C18_ins_sort_true_false_by_word.

(** read on integers: for elements that are all non-negative (or all negative)
    integers the result is the integers in ascending / descending order *)
Definition same_sign_ints (l : list Z) : Prop :=
  exists f, (forall v, In v l -> exists i, v = PN_NUM i /\ -2^62 <= i < 2^62 /\ f i = true) /\
            (f = (fun i => 0 <=? i) \/ f = (fun i => i <? 0)).
Lemma word_order f i j : (f = (fun i => 0 <=? i) \/ f = (fun i => i <? 0)) ->
  f i = true -> f j = true -> -2^62 <= i < 2^62 -> -2^62 <= j < 2^62 -> (PN_NUM i <= PN_NUM j <-> i <= j).
Proof. intros Hf Hi Hj Ri Rj. rewrite !PN_NUM_eq. unfold two64. destruct Hf; subst f; cbn beta in *; lia. Qed.
Theorem C18_sort_ints_same_sign : forall uniq e t, wf t -> 1 <= t_len t -> same_sign_ints (contents t) ->
  (exists t', (forall fuel, (Z.to_nat (t_len t) + 1 <= fuel)%nat -> tuple_sort uniq e t CmpTrue fuel tt = Ok (tt, t')) /\
    Permutation (contents t') (contents t) /\ ordered (fun v w => PN_INT v <= PN_INT w) (contents t')) /\
  (exists t', (forall fuel, (Z.to_nat (t_len t) + 1 <= fuel)%nat -> tuple_sort uniq e t CmpFalse fuel tt = Ok (tt, t')) /\
    Permutation (contents t') (contents t) /\ ordered (fun v w => PN_INT v >= PN_INT w) (contents t')).
Proof.
  intros uniq e t W Hl [f [HV Hf]].
  assert (RP : forall i, -2^62 <= i < 2^62 -> repb i = true) by (intros; apply repb_spec; unfold two62; lia).
  destruct (C18_sort_true_false_by_word uniq e t W Hl) as [[t1 [E1 [P1 O1]]] [t2 [E2 [P2 O2]]]]. split.
  - exists t1. split; [exact E1|]. split; [exact P1|]. intros i j x y Hij Hx Hy.
    pose proof (O1 i j x y Hij Hx Hy) as O.
    apply nth_error_In in Hx. apply nth_error_In in Hy. apply (Permutation_in _ P1) in Hx. apply (Permutation_in _ P1) in Hy.
    destruct (HV x Hx) as [a [-> [Ra Fa]]]. destruct (HV y Hy) as [b [-> [Rb Fb]]].
    rewrite !PN_INT_NUM by (apply RP; assumption). apply (word_order f a b Hf Fa Fb Ra Rb). exact O.
  - exists t2. split; [exact E2|]. split; [exact P2|]. intros i j x y Hij Hx Hy.
    pose proof (O2 i j x y Hij Hx Hy) as O.
    apply nth_error_In in Hx. apply nth_error_In in Hy. apply (Permutation_in _ P2) in Hx. apply (Permutation_in _ P2) in Hy.
    destruct (HV x Hx) as [a [-> [Ra Fa]]]. destruct (HV y Hy) as [b [-> [Rb Fb]]].
    rewrite !PN_INT_NUM by (apply RP; assumption). apply Z.le_ge. apply (word_order f b a Hf Fb Fa Rb Ra). lia.
Qed.
Print Assumptions C18_sort_ints_same_sign.

(** A comparison block: the documented convention is cmp(a,b) = -1, 0, 1 for
    a < b, a = b, a > b.  [lt] is the strict order the block implements. *)
Record block_implements (lt : Z -> Z -> Prop) (f : Z -> Z -> unit -> unit * Z) : Prop := {
  bi_gt : forall a b, PN_INT (snd (f a b tt)) > 0 <-> lt b a;
  bi_asym : forall a b, lt a b -> ~ lt b a;
  bi_neg_trans : forall a b c, ~ lt a b -> ~ lt b c -> ~ lt a c;
}.
(** insertion sort (less than 10 elements): ascending *)
Theorem C18_ins_sort_block_small : forall uniq lt f t, block_implements lt f -> wf t -> t_len t < 10 ->
  exists t', (forall fuel, tuple_ins_sort uniq t (CmpBlock f) fuel tt = Ok (tt, t')) /\
    Permutation (contents t') (contents t) /\ ordered (fun x y => ~ lt y x) (contents t').
Proof.
  intros uniq lt f t [B1 B2 B3] W Hl. apply small_ins_sort_general; try assumption.
  - intros x y z H1 H2 H. apply (B3 z y x); assumption.
  - intros a b H. cbn in H. specialize (B1 a b). destruct (f a b tt) as [s r]. cbn [snd] in *. intros G. apply B1 in G. lia.
  - intros a b H. cbn in H. specialize (B1 a b). destruct (f a b tt) as [s r]. cbn [snd] in *. apply B2. apply B1. lia.
Qed.
Print Assumptions C18_ins_sort_block_small.
(** quicksort ("sort", and "ins_sort" from 10 elements on): descending *)
Theorem C18_sort_block_descending : forall uniq lt f e t, block_implements lt f -> wf t -> 1 <= t_len t ->
  exists t', (forall fuel, (Z.to_nat (t_len t) + 1 <= fuel)%nat -> tuple_sort uniq e t (CmpBlock f) fuel tt = Ok (tt, t')) /\
    Permutation (contents t') (contents t) /\ ordered (fun x y => ~ lt x y) (contents t').
Proof.
  intros uniq lt f e t [B1 B2 B3] W Hl. apply sort_general; try assumption; try discriminate.
  - intros x p H. cbn in H. specialize (B1 x p). destruct (f x p tt) as [s r]. cbn [snd] in *. apply B2. apply B1. lia.
  - intros x p H. cbn in H. specialize (B1 x p). destruct (f x p tt) as [s r]. cbn [snd] in *. intros G. apply B1 in G. lia.
Qed.
Print Assumptions C18_sort_block_descending.
Theorem C18_ins_sort_block_big : forall uniq lt f t, block_implements lt f -> wf t -> 10 <= t_len t ->
  exists t', (forall fuel, (Z.to_nat (t_len t) + 1 <= fuel)%nat -> tuple_ins_sort uniq t (CmpBlock f) fuel tt = Ok (tt, t')) /\
    Permutation (contents t') (contents t) /\ ordered (fun x y => ~ lt x y) (contents t').
Proof.
  intros uniq lt f t [B1 B2 B3] W Hl. apply big_ins_sort_general; try assumption; try discriminate.
  - intros x p H. cbn in H. specialize (B1 x p). destruct (f x p tt) as [s r]. cbn [snd] in *. apply B2. apply B1. lia.
  - intros x p H. cbn in H. specialize (B1 x p). destruct (f x p tt) as [s r]. cbn [snd] in *. intros G. apply B1 in G. lia.
Qed.
Print Assumptions C18_ins_sort_block_big.

(** concrete comparison block on words *)
Definition cmp_words (a b : Z) (s : unit) : unit * Z :=
  (s, if a <? b then PN_NUM (-1) else if a =? b then PN_NUM 0 else PN_NUM 1).
Lemma cmp_words_ok : block_implements Z.lt cmp_words.
Proof.
  split; intros; try lia. unfold cmp_words. cbn [snd].
  destruct (a <? b) eqn:E1; [|destruct (a =? b) eqn:E2]; vm_compute PN_INT; lia.
Qed.
Example C18_instances : wf (mkT 3 3 [PN_NUM 5; PN_NUM 3; PN_NUM 4]) /\ same_sign_ints [PN_NUM 5; PN_NUM 3; PN_NUM 4].
Proof.
  split; [unfold wf, zlen; cbn; lia|]. exists (fun i => 0 <=? i). split; [|left; reflexivity].
  intros v [<-|[<-|[<-|[]]]]; [exists 5|exists 3|exists 4]; repeat split; try lia.
Qed.

(** Findings.
    - sort(true) puts negative integers after the non-negative ones *)
Theorem C18_sort_mixed_sign_refuted : exists t, wf t /\ contents t = [PN_NUM (-1); PN_NUM 1] /\
  forall uniq e fuel, exists t', tuple_sort uniq e t CmpTrue (S (S (S fuel))) tt = Ok (tt, t') /\
    contents t' = [PN_NUM 1; PN_NUM (-1)].
Proof.
  exists (mkT 2 2 [PN_NUM (-1); PN_NUM 1]). split; [unfold wf, zlen; cbn; lia|]. split; [reflexivity|].
  intros uniq e fuel. eexists. split; [vm_compute; reflexivity|vm_compute; reflexivity].
Qed.
Print Assumptions C18_sort_mixed_sign_refuted.
(** - the default sort never reorders a two-element tuple (the loop bound excludes the last
      element before the pivot) *)
Theorem C18_sort_default_refuted : forall (uniq : Z -> Z) e x y fuel, exists t',
  tuple_sort uniq e (mkT 2 2 [x; y]) CmpNil (S (S (S fuel))) tt = Ok (tt, t') /\ contents t' = [x; y].
Proof.
  intros uniq e x y fuel. 
  assert (W : wf (mkT 2 2 [x; y])) by (unfold wf, zlen; cbn; lia).
  destruct (tuple_clone_ok e _ W) as [d [Ed [Wd [Ld [Ad [Md Cd]]]]]].
  unfold tuple_sort. rewrite Ed. cbn [bind].
  assert (Em : t_mem d = [x; y]).
  { unfold contents at 2 in Cd. cbn in Cd. unfold contents in Cd. rewrite Ld in Cd. cbn [t_len] in *.
    destruct (t_mem d) as [|a [|b [|]]]; unfold zlen in Md; cbn in *; try lia. exact Cd. }
  rewrite Em. cbn [t_len]. change (u32 (2 - 1)) with 1. cbn [sort_internal].
  change (0 <? 1) with true. change (0 + (1 - 0) / 2) with 0. cbn beta iota.
  rewrite rd_ok by (unfold zlen; cbn; lia). cbn [bind]. rewrite SWAP_ok by (unfold zlen; cbn; lia). cbn [bind].
  change (Z.to_nat (1 - 1 - 0)) with 0%nat. cbn [partition_loop bind].
  change (swapped [x; y] 0 1) with [y; x].
  rewrite SWAP_ok by (unfold zlen; cbn; lia). cbn [bind]. change (swapped [y; x] 0 1) with [x; y].
  eexists. split; [reflexivity|]. unfold contents. cbn [t_len t_mem]. rewrite Ld. reflexivity.
Qed.
Print Assumptions C18_sort_default_refuted.
(** - the same comparison block sorts in opposite directions below and from 10 elements *)
Theorem C18_ins_sort_direction_refuted :
  (exists t', tuple_ins_sort (fun v => v) (mkT 3 3 [1; 3; 2]) (CmpBlock cmp_words) 11 tt = Ok (tt, t') /\
              contents t' = [1; 2; 3]) /\
  (exists t', tuple_ins_sort (fun v => v) (mkT 10 10 [1; 3; 2; 4; 5; 6; 7; 8; 9; 10]) (CmpBlock cmp_words) 11 tt = Ok (tt, t') /\
              contents t' = [10; 9; 8; 7; 6; 5; 4; 3; 2; 1]).
Proof. split; eexists; split; vm_compute; reflexivity. Qed.
Print Assumptions C18_ins_sort_direction_refuted.
