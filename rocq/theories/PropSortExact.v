(** C18, the whole integer domain and the default order. *)
From Coq Require Import ZifyBool Permutation.
From Verif Require Import Base WordModel WordProofs Arr TupleModel TupleProofs SortModel SortProofs PropTuple PropSort.
Ltac Zify.zify_post_hook ::= Z.div_mod_to_equations.

(** the order of the sorts true and false on integers of any sign: 0, 1, 2, ..., then ..., -2, -1 *)
Definition word_le (i j : Z) : Prop := if (0 <=? i) && (0 <=? j) || (i <? 0) && (j <? 0) then i <= j else 0 <= i.
Definition ints (l : list Z) : Prop := forall v, In v l -> exists i, v = PN_NUM i /\ -2^62 <= i < 2^62.

Lemma word_le_ok v w : (exists i, v = PN_NUM i /\ -2^62 <= i < 2^62) -> (exists i, w = PN_NUM i /\ -2^62 <= i < 2^62) ->
  v <= w -> word_le (PN_INT v) (PN_INT w).
Proof.
  intros (i & -> & Hi) (j & -> & Hj). rewrite !PN_INT_NUM by (apply repb_spec; unfold two62; lia). rewrite !PN_NUM_eq. unfold two64, word_le. 
  destruct ((0 <=? i) && (0 <=? j) || (i <? 0) && (j <? 0)) eqn:E; lia.
Qed.

Theorem C18_sort_ints_exact : forall uniq e t, wf t -> 1 <= t_len t -> ints (contents t) ->
  (exists t', (forall fuel, (Z.to_nat (t_len t) + 1 <= fuel)%nat -> tuple_sort uniq e t CmpTrue fuel tt = Ok (tt, t')) /\
    Permutation (contents t') (contents t) /\ ordered (fun v w => word_le (PN_INT v) (PN_INT w)) (contents t')) /\
  (exists t', (forall fuel, (Z.to_nat (t_len t) + 1 <= fuel)%nat -> tuple_sort uniq e t CmpFalse fuel tt = Ok (tt, t')) /\
    Permutation (contents t') (contents t) /\ ordered (fun v w => word_le (PN_INT w) (PN_INT v)) (contents t')).
Proof.
  intros uniq e t W Hl HI.
  destruct (C18_sort_true_false_by_word uniq e t W Hl) as [[t1 [E1 [P1 O1]]] [t2 [E2 [P2 O2]]]]. split.
  - exists t1. split; [exact E1|]. split; [exact P1|]. intros i j x y Hij Hx Hy.
    apply word_le_ok; [apply HI, (Permutation_in _ P1), (nth_error_In _ _ Hx)|apply HI, (Permutation_in _ P1), (nth_error_In _ _ Hy)|].
    exact (O1 i j x y Hij Hx Hy).
  - exists t2. split; [exact E2|]. split; [exact P2|]. intros i j x y Hij Hx Hy.
    apply word_le_ok; [apply HI, (Permutation_in _ P2), (nth_error_In _ _ Hy)|apply HI, (Permutation_in _ P2), (nth_error_In _ _ Hx)|].
    pose proof (O2 i j x y Hij Hx Hy). lia.
Qed.
Print Assumptions C18_sort_ints_exact.
(** the order is the integers' exactly when they have the same sign *)
Theorem C18_word_order_is_the_integer_order_iff : forall i j, i <> j ->
  ((word_le i j <-> i <= j) <-> (0 <= i <-> 0 <= j)).
Proof. intros i j N. unfold word_le. destruct ((0 <=? i) && (0 <=? j) || (i <? 0) && (j <? 0)) eqn:E; lia. Qed.
Print Assumptions C18_word_order_is_the_integer_order_iff.

(** the default order of ins_sort below ten elements: ascending identity numbers *)
Theorem C18_ins_sort_default_small : forall uniq t, wf t -> t_len t < 10 ->
  exists t', (forall fuel, tuple_ins_sort uniq t CmpNil fuel tt = Ok (tt, t')) /\
    Permutation (contents t') (contents t) /\ ordered (fun v w => uniq v <= uniq w) (contents t').
Proof.
  intros uniq t W Hl. apply small_ins_sort_general; try assumption; cbn; intros; lia.
Qed.
Print Assumptions C18_ins_sort_default_small.
Example C18_exact_instance : ints [PN_NUM (-1); PN_NUM 1] /\ word_le 1 (-1) /\ ~ word_le (-1) 1 /\
  exists t', tuple_sort (fun v => v) env0 (mkT 3 3 [PN_NUM (-1); PN_NUM 5; PN_NUM (-7)]) CmpTrue 5 tt = Ok (tt, t') /\
    contents t' = [PN_NUM 5; PN_NUM (-7); PN_NUM (-1)].
Proof.
  split; [intros v [<-|[<-|[]]]; [exists (-1)|exists 1]; split; try reflexivity; lia|].
  unfold word_le. split; [cbn; lia|]. split; [cbn; lia|]. eexists. split; vm_compute; reflexivity.
Qed.
