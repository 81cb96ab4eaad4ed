(** Properties C10-C16: tuples (lists). *)
From Coq Require Import ZifyBool Permutation.
From Verif Require Import Base WordModel WordProofs Arr TupleModel TupleProofs.
Ltac Zify.zify_post_hook ::= Z.div_mod_to_equations.

(** ** C10: histories *)
(** Specification: the operations on mathematical lists. *)
Inductive op := Push (v : Z) | Pop | Put (i v : Z) | Unshift (v : Z) | Shift | Collect.
Fixpoint set_nth (n : nat) (v : Z) (l : list Z) : list Z :=
  match l, n with
  | [], _ => []
  | _ :: r, O => v :: r
  | x :: r, S n' => x :: set_nth n' v r
  end.
Definition spec_put (i v : Z) (l : list Z) : option (list Z) :=
  let n := Z.of_nat (length l) in
  if (0 <=? i) && (i <? n) then Some (set_nth (Z.to_nat i) v l)
  else if (i <? 0) && (- n <=? i) then Some (set_nth (Z.to_nat (n + i)) v l)
  else if i =? n then Some (l ++ [v])
  else None.
(** [None]: outside the property (popping an empty list, an index not in the list) *)
Definition spec_step (o : op) (l : list Z) : option (list Z * option Z) :=
  match o with
  | Push v => Some (l ++ [v], None)
  | Pop => match l with [] => None | x :: r => Some (removelast l, Some (last l 0)) end
  | Put i v => match spec_put i v l with Some l' => Some (l', None) | None => None end
  | Unshift v => Some (v :: l, None)
  | Shift => match l with [] => None | x :: r => Some (r, Some x) end
  | Collect => Some (l, None)
  end.
Fixpoint spec_run (h : list op) (l : list Z) : option (list Z * list (option Z)) :=
  match h with
  | [] => Some (l, [])
  | o :: h' => match spec_step o l with
               | None => None
               | Some (l', r) => match spec_run h' l' with
                                 | None => None
                                 | Some (l'', rs) => Some (l'', r :: rs)
                                 end
               end
  end.
(** The same history on the implementation; each step happens in its own memory environment. *)
Definition impl_step (e : env) (o : op) (t : tuple) : res (tuple * option Z) :=
  match o with
  | Push v => do t' <- tuple_push e t v; Ok (t', None)
  | Pop => do (t', x) <- tuple_pop e t; Ok (t', Some x)
  | Put i v => do r <- tuple_put e t (PN_NUM i) v; match r with inl t' => Ok (t', None) | inr _ => UB end
  | Unshift v => do t' <- tuple_unshift e t v; Ok (t', None)
  | Shift => do (t', x) <- tuple_shift e t; Ok (t', Some x)
  | Collect => do t' <- tuple_gc t; Ok (t', None)
  end.
Fixpoint impl_run (es : nat -> env) (h : list op) (t : tuple) : res (tuple * list (option Z)) :=
  match h with
  | [] => Ok (t, [])
  | o :: h' => do (t', r) <- impl_step (es (length h)) o t;
               do (t'', rs) <- impl_run es h' t'; Ok (t'', r :: rs)
  end.

Lemma upd_set_nth l i v : 0 <= i < zlen l -> upd l i v = set_nth (Z.to_nat i) v l.
Proof.
  intros H. unfold upd. assert (Hn : (Z.to_nat i < length l)%nat) by (unfold zlen in H; lia).
  revert Hn. generalize (Z.to_nat i) as n. clear. induction l as [|x l IH]; intros n Hn; [cbn in Hn; lia|].
  destruct n; [reflexivity|]. cbn. f_equal. apply IH. cbn in Hn. lia.
Qed.
Lemma spec_step_len o l l' r : spec_step o l = Some (l', r) -> zlen l' <= zlen l + 1.
Proof.
  destruct o; cbn [spec_step]; intros H.
  - injection H as <- <-. rewrite zlen_app, zlen_cons, zlen_nil. lia.
  - destruct l as [|x l0]; [discriminate|]. injection H as <- <-.
    pose proof (app_removelast_last 0 (l := x :: l0) ltac:(discriminate)) as X.
    apply (f_equal (@zlen Z)) in X. rewrite zlen_app, !zlen_cons, zlen_nil in X.
    rewrite zlen_cons. change (match l0 with [] => [] | _ :: _ => x :: removelast l0 end) with (removelast (x :: l0)). lia.
  - unfold spec_put in H.
    assert (X : forall n, zlen (set_nth n v l) = zlen l).
    { clear. intros n. revert n. induction l as [|x l IH]; intros n; [destruct n; reflexivity|].
      destruct n; cbn [set_nth]; rewrite ?zlen_cons; [reflexivity|rewrite IH; reflexivity]. }
    destruct ((0 <=? i) && (i <? Z.of_nat (length l))); [injection H as <- <-; rewrite X; lia|].
    destruct ((i <? 0) && (- Z.of_nat (length l) <=? i)); [injection H as <- <-; rewrite X; lia|].
    destruct (i =? Z.of_nat (length l)); [|discriminate]. injection H as <- <-.
    rewrite zlen_app, zlen_cons, zlen_nil. lia.
  - injection H as <- <-. rewrite zlen_cons. lia.
  - destruct l; [discriminate|]. injection H as <- <-. rewrite zlen_cons. lia.
  - injection H as <- <-. lia.
Qed.

Lemma impl_step_ok e g o t l' r : e_after e = Some g -> wf t -> 1 <= t_alloc t <= 2^27 -> t_len t < 2^26 ->
  spec_step o (contents t) = Some (l', r) ->
  exists t', impl_step e o t = Ok (t', r) /\ wf t' /\ 1 <= t_alloc t' <= 2^27 /\ contents t' = l'.
Proof.
  intros Hg W Ha Hl H. pose proof (zlen_contents t W) as Lc. pose proof W as [H1 [H2 H3]].
  destruct o; cbn [spec_step] in H; unfold impl_step.
  - injection H as <- <-. destruct (tuple_push_ok e t v W) as [t' [E [W' [A C]]]]; [lia|lia|].
    exists t'. rewrite E. cbn [bind]. split; [reflexivity|]. split; [assumption|]. split; [lia|assumption].
  - destruct (contents t) as [|x l0] eqn:EC; [discriminate|]. injection H as <- <-.
    assert (X : contents t = removelast (x :: l0) ++ [last (x :: l0) 0])
      by (rewrite EC; apply app_removelast_last; discriminate).
    destruct (tuple_pop_ok e t _ _ W X) as [t' [E [W' [A C]]]].
    exists t'. rewrite E. cbn [bind]. split; [reflexivity|]. split; [assumption|]. split; [lia|assumption].
  - destruct (spec_put i v (contents t)) as [l1|] eqn:EP; [|discriminate]. injection H as <- <-.
    unfold spec_put in EP. fold (zlen (contents t)) in EP. rewrite Lc in EP.
    assert (Hr : - t_len t <= i <= t_len t -> repb i = true) by (intros; apply repb_spec; unfold two62; lia).
    destruct ((0 <=? i) && (i <? t_len t)) eqn:E1.
    + injection EP as <-. destruct (tuple_put_ok e t i v W) as [t' [E [W' [A C]]]];
        [lia|lia|apply Hr; lia|unfold norm; destruct (i <? 0) eqn:?; lia|].
      exists t'. rewrite E. cbn [bind]. split; [reflexivity|]. split; [assumption|]. split; [lia|].
      rewrite C. unfold norm. destruct (i <? 0) eqn:E2; [lia|]. apply upd_set_nth. lia.
    + destruct ((i <? 0) && (- t_len t <=? i)) eqn:E2.
      * injection EP as <-. destruct (tuple_put_ok e t i v W) as [t' [E [W' [A C]]]];
          [lia|lia|apply Hr; lia|unfold norm; destruct (i <? 0) eqn:?; lia|].
        exists t'. rewrite E. cbn [bind]. split; [reflexivity|]. split; [assumption|]. split; [lia|].
        rewrite C. unfold norm. destruct (i <? 0) eqn:E3; [|lia].
        rewrite upd_set_nth by lia. rewrite Z.add_comm. reflexivity.
      * destruct (i =? t_len t) eqn:E3; [|discriminate]. injection EP as <-.
        destruct (tuple_put_push e t i v W) as [t' [E [W' [A C]]]]; [lia|lia|lia|].
        exists t'. rewrite E. cbn [bind]. split; [reflexivity|]. split; [assumption|]. split; [lia|assumption].
  - injection H as <- <-. destruct (tuple_unshift_ok e t v W) as [t' [E [W' [A C]]]]; [lia|lia|].
    exists t'. rewrite E. cbn [bind]. split; [reflexivity|]. split; [assumption|]. split; [lia|assumption].
  - destruct (contents t) as [|x l0] eqn:EC; [discriminate|]. injection H as <- <-.
    destruct (tuple_shift_ok e g t _ _ Hg W EC) as [t' [E [W' [A C]]]].
    exists t'. rewrite E. cbn [bind]. split; [reflexivity|]. split; [assumption|]. split; [lia|assumption].
  - injection H as <- <-. destruct (tuple_gc_ok t W) as [t' [E [W' [A C]]]].
    exists t'. rewrite E. cbn [bind]. split; [reflexivity|]. split; [assumption|]. split; [lia|assumption].
Qed.

Theorem C10_history_general : forall es h t l' rs,
  (forall n, exists g, e_after (es n) = Some g) ->
  wf t -> 1 <= t_alloc t <= 2^27 -> t_len t + Z.of_nat (length h) <= 2^26 ->
  spec_run h (contents t) = Some (l', rs) ->
  exists t', impl_run es h t = Ok (t', rs) /\ contents t' = l' /\ wf t'.
Proof.
  intros es h. induction h as [|o h IH]; intros t l' rs He W Ha Hl H; cbn [spec_run impl_run] in *.
  - injection H as <- <-. exists t. auto.
  - destruct (spec_step o (contents t)) as [[l1 r]|] eqn:E1; [|discriminate].
    destruct (spec_run h l1) as [[l2 rs']|] eqn:E2; [|discriminate]. injection H as <- <-.
    destruct (He (length (o :: h))) as [g Hg]. cbn [length] in *.
    destruct (impl_step_ok _ g _ _ _ _ Hg W Ha ltac:(lia) E1) as [t1 [Es [W1 [A1 C1]]]].
    rewrite Es. cbn [bind].
    pose proof (spec_step_len _ _ _ _ E1) as HL. rewrite <- C1, !zlen_contents in HL by assumption.
    rewrite <- C1 in E2.
    destruct (IH t1 _ _ He W1 A1 ltac:(lia) E2) as [t2 [Er [C2 W2]]].
    rewrite Er. cbn [bind]. exists t2. auto.
Qed.
Print Assumptions C10_history_general.

(** starting from a new tuple: the whole observable behaviour is the list's.
    (Partial: assumes the word after the block is mapped, because shift reads it;
    histories that pop or shift an empty tuple are outside, see below.) *)
Theorem C10_tuple_is_a_list : forall es e h l' rs,
  (forall n, exists g, e_after (es n) = Some g) -> Z.of_nat (length h) <= 2^26 ->
  spec_run h [] = Some (l', rs) ->
  exists t0 t', tuple_empty e = Ok t0 /\ impl_run es h t0 = Ok (t', rs) /\
                tuple_length t' = PN_NUM (Z.of_nat (length l')) /\
                forall i, (i < length l')%nat -> tuple_at t' (PN_NUM (Z.of_nat i)) = Ok (nth i l' 0).
Proof.
  intros es e h l' rs He Hl H. destruct (tuple_empty_ok e) as [t0 [E0 [W0 [A0 C0]]]].
  pose proof (zlen_contents _ W0) as L0. rewrite C0, zlen_nil in L0. rewrite <- C0 in H.
  destruct (C10_history_general es h t0 l' rs He W0 ltac:(lia) ltac:(lia) H) as [t' [E [C W]]].
  exists t0, t'. split; [exact E0|]. split; [exact E|].
  pose proof (zlen_contents _ W) as L. rewrite C in L. unfold zlen in L. split; [unfold tuple_length; f_equal; lia|].
  intros i Hi. pose proof W as [? [? ?]]. rewrite tuple_at_ok; [|assumption|apply repb_spec; unfold two62; lia|lia].
  unfold norm. destruct (Z.of_nat i <? t_len t') eqn:E1; [|lia]. destruct (Z.of_nat i <? 0) eqn:E2; [lia|].
  rewrite C. unfold znth. rewrite Nat2Z.id. reflexivity.
Qed.
Print Assumptions C10_tuple_is_a_list.

Definition env0 : env := mkE (fun _ => 99) (Some 77).
Example C10_instances :
  let h := [Push 1; Push 2; Push 3; Push 4; Collect; Unshift 5; Put (-1) 6; Put 5 7; Shift; Pop; Pop] in
  spec_run h [] = Some ([1; 2; 3], [None; None; None; None; None; None; None; None; Some 5; Some 7; Some 6])
  /\ exists t, (do t0 <- tuple_empty env0; impl_run (fun _ => env0) h t0) =
     Ok (t, [None; None; None; None; None; None; None; None; Some 5; Some 7; Some 6]) /\ contents t = [1; 2; 3].
Proof. split; [reflexivity|]. eexists. split; vm_compute; reflexivity. Qed.

(** Findings: what the full property would need and the code does not do.
    - pop and shift do not check for an empty tuple: pop reads far outside *)
Theorem C10_pop_empty_in_bounds_refuted : forall e t, wf t -> t_len t = 0 -> zlen (t_mem t) < 2^32 - 1 ->
  tuple_pop e t = UB.
Proof.
  intros e t [H1 [H2 H3]] H0 Hz. unfold tuple_pop. rewrite H0. rewrite rd_ub; [reflexivity|].
  unfold u32, two32. lia.
Qed.
Print Assumptions C10_pop_empty_in_bounds_refuted.
(** - shift (and delete, remove) reads one word past a full allocation *)
Theorem C10_shift_in_bounds_refuted : forall e t, wf t -> 1 <= t_len t -> t_len t = zlen (t_mem t) ->
  e_after e = None -> tuple_shift e t = UB.
Proof.
  intros e t [H1 [H2 H3]] H0 Hz He. unfold tuple_shift. rewrite rd_ok by lia. cbn [bind].
  unfold memmove. destruct (t_len t <? 0) eqn:E; [lia|].
  assert (X : forall n i, (0 < n)%nat -> 0 <= i <= zlen (t_mem t) -> i + Z.of_nat n = zlen (t_mem t) + 1 ->
              rd_run e (t_mem t) i n = UB).
  { intros n. induction n as [|n IH]; intros i Hn Hi Hs; [lia|]. cbn [rd_run]. unfold rd_after.
    destruct (i =? zlen (t_mem t)) eqn:E1; [rewrite He; reflexivity|].
    rewrite rd_ok by lia. cbn [bind]. rewrite IH by lia. reflexivity. }
  rewrite X by lia. reflexivity.
Qed.
Print Assumptions C10_shift_in_bounds_refuted.
(** - a tuple with no capacity (list(0), a clone or map of an empty tuple) is
      corrupted by its first push: the element is written past the allocation *)
Theorem C10_push_on_zero_capacity_refuted : forall e v,
  (do t <- tuple_with_size e 0; tuple_push e t v) = UB /\
  (do t0 <- tuple_empty e; do t <- tuple_clone e t0; tuple_push e t v) = UB.
Proof. intros e v. split; reflexivity. Qed.
Print Assumptions C10_push_on_zero_capacity_refuted.

(** ** C11: indexing *)
(** element [i] of a list counted from the end when negative; [None] when absent *)
Definition list_index (l : list Z) (i : Z) : option Z :=
  let n := Z.of_nat (length l) in
  if (0 <=? i) && (i <? n) then nth_error l (Z.to_nat i)
  else if (- n <=? i) && (i <? 0) then nth_error l (Z.to_nat (n + i))
  else None.
Lemma nth_error_znth l i : 0 <= i < zlen l -> nth_error l (Z.to_nat i) = Some (znth l i).
Proof. intros H. unfold znth, zlen in *. apply nth_error_nth'. lia. Qed.

Theorem C11_at : forall t i, wf t -> -2^62 <= i < 2^62 -> - t_len t <= i ->
  tuple_at t (PN_NUM i) = Ok (match list_index (contents t) i with Some v => v | None => PN_NIL end).
Proof.
  intros t i W Hr Hi. pose proof (zlen_contents t W) as L. pose proof W as [H1 [H2 H3]].
  rewrite tuple_at_ok; [|assumption|apply repb_spec; unfold two62; lia|assumption].
  unfold list_index. fold (zlen (contents t)). rewrite L. unfold norm.
  destruct (i <? t_len t) eqn:E1; destruct (i <? 0) eqn:E2; try lia.
  - destruct ((0 <=? i) && true) eqn:E3; [lia|].
    destruct ((- t_len t <=? i) && true) eqn:E4; [|lia].
    rewrite nth_error_znth by lia. do 2 f_equal. lia.
  - destruct ((0 <=? i) && true) eqn:E3; [|lia]. rewrite nth_error_znth by lia. reflexivity.
  - destruct ((0 <=? i) && false) eqn:E3; [lia|]. destruct ((- t_len t <=? i) && false) eqn:E4; [lia|reflexivity].
Qed.
Print Assumptions C11_at.

Theorem C11_put : forall e t i v, wf t -> 1 <= t_alloc t -> t_len t < 2^26 ->
  - t_len t <= i < t_len t ->
  exists t', tuple_put e t (PN_NUM i) v = Ok (inl t') /\ wf t' /\
    zlen (t_mem t') = zlen (t_mem t) /\
    tuple_at t' (PN_NUM i) = Ok v /\
    (forall j, - t_len t <= j < t_len t -> (j - i) mod t_len t <> 0 -> tuple_at t' (PN_NUM j) = tuple_at t (PN_NUM j)) /\
    t_len t' = t_len t.
Proof.
  intros e t i v W Ha Hl Hi. pose proof W as [H1 [H2 H3]].
  assert (Hr : forall j, - t_len t <= j < t_len t -> repb j = true) by (intros; apply repb_spec; unfold two62; lia).
  assert (Hn : 0 <= norm (t_len t) i < t_len t) by (unfold norm; destruct (i <? 0) eqn:?; lia).
  unfold tuple_put. rewrite PN_NUM_is_int, PN_INT_NUM by (apply Hr; lia). fold (norm (t_len t) i).
  destruct (norm (t_len t) i <? t_len t) eqn:E; [|lia]. rewrite wr_ok by lia. cbn [bind].
  eexists. split; [reflexivity|]. unfold wf. cbn [t_len t_alloc t_mem].
  rewrite !zlen_upd by lia. split; [lia|]. split; [reflexivity|].
  assert (AT : forall m j, zlen m = zlen (t_mem t) -> - t_len t <= j < t_len t ->
     tuple_at (mkT (t_len t) (t_alloc t) m) (PN_NUM j) = Ok (znth m (norm (t_len t) j))).
  { intros m j Lm Hj. unfold tuple_at. rewrite PN_INT_NUM by (apply Hr; lia). cbn [t_len t_mem].
    fold (norm (t_len t) j). assert (0 <= norm (t_len t) j < t_len t) by (unfold norm; destruct (j <? 0) eqn:?; lia).
    destruct (norm (t_len t) j >=? t_len t) eqn:?; [lia|]. apply rd_ok. lia. }
  split; [|split; [|reflexivity]].
  - rewrite AT by (rewrite ?zlen_upd; lia). rewrite znth_upd_same by lia. reflexivity.
  - intros j Hj Hne. rewrite AT by (rewrite ?zlen_upd; lia).
    assert (T : t = mkT (t_len t) (t_alloc t) (t_mem t)) by (destruct t; reflexivity). 
    transitivity (tuple_at (mkT (t_len t) (t_alloc t) (t_mem t)) (PN_NUM j)); [|rewrite <- T; reflexivity].
    rewrite AT by (rewrite ?zlen_upd; lia).
    assert (Hm : 0 <= norm (t_len t) j < t_len t) by (unfold norm; destruct (j <? 0) eqn:?; lia).
    rewrite znth_upd_other; [reflexivity|lia|lia|].
    intros Heq. apply Hne. unfold norm in Heq.
    assert (Hx : exists k, j - i = k * t_len t).
    { destruct (i <? 0), (j <? 0); [exists 0|exists 1|exists (-1)|exists 0]; lia. }
    destruct Hx as [k ->]. apply Z_mod_mult.
Qed.
Print Assumptions C11_put.

Example C11_instances : wf (mkT 3 4 [10; 20; 30; 0]) /\
  tuple_at (mkT 3 4 [10; 20; 30; 0]) (PN_NUM (-1)) = Ok 30 /\
  tuple_at (mkT 3 4 [10; 20; 30; 0]) (PN_NUM 3) = Ok PN_NIL.
Proof. unfold wf, zlen. cbn. repeat split; lia. Qed.

(** Finding: an index below -len is not checked; at and put access memory
    before the elements (the length field, or another object). *)
Theorem C11_at_negative_refuted : forall t i, wf t -> -2^62 <= i -> i < - t_len t -> tuple_at t (PN_NUM i) = UB.
Proof.
  intros t i [H1 [H2 H3]] Hr Hi. unfold tuple_at. rewrite PN_INT_NUM by (apply repb_spec; unfold two62; lia).
  destruct (i <? 0) eqn:E; [|lia]. destruct (i + t_len t >=? t_len t) eqn:E2; [lia|]. apply rd_ub. lia.
Qed.
Print Assumptions C11_at_negative_refuted.
Theorem C11_put_negative_refuted : forall e t i v, wf t -> -2^62 <= i -> i < - t_len t ->
  tuple_put e t (PN_NUM i) v = UB.
Proof.
  intros e t i v [H1 [H2 H3]] Hr Hi. unfold tuple_put. rewrite PN_NUM_is_int, PN_INT_NUM by (apply repb_spec; unfold two62; lia).
  destruct (i <? 0) eqn:E; [|lia]. destruct (i + t_len t <? t_len t) eqn:E2; [|lia]. rewrite wr_ub by lia. reflexivity.
Qed.
Print Assumptions C11_put_negative_refuted.

(** ** C12: delete and remove by index *)
(** the list without its element number [i] *)
Definition without (i : nat) (l : list Z) : list Z := firstn i l ++ skipn (S i) l.
Lemma del_without l i : 0 <= i < zlen l -> del l i = without (Z.to_nat i) l.
Proof. intros H. unfold del, without, ztake, zdrop. repeat f_equal. lia. Qed.

Theorem C12_delete : forall e g t i, e_after e = Some g -> wf t -> 0 <= i < t_len t ->
  exists t', tuple_delete e t (PN_NUM i) = Ok t' /\ wf t' /\ contents t' = without (Z.to_nat i) (contents t).
Proof.
  intros e g t i Hg W Hi. destruct (tuple_delete_ok e g t i Hg W Hi) as [t' [E [W' [A C]]]].
  exists t'. split; [exact E|]. split; [exact W'|]. rewrite C. apply del_without. rewrite zlen_contents; assumption.
Qed.
Print Assumptions C12_delete.
Theorem C12_remove : forall e g t i, e_after e = Some g -> wf t -> 0 <= i < t_len t ->
  exists t', tuple_remove e t (PN_NUM i) = Ok t' /\ wf t' /\ contents t' = without (Z.to_nat i) (contents t).
Proof.
  intros e g t i Hg W Hi. destruct (tuple_remove_ok e g t i Hg W Hi) as [t' [E [W' C]]].
  exists t'. split; [exact E|]. split; [exact W'|]. rewrite C. apply del_without. rewrite zlen_contents; assumption.
Qed.
Print Assumptions C12_remove.
Example C12_instances : exists t', tuple_delete env0 (mkT 3 3 [10; 20; 30]) (PN_NUM 1) = Ok t' /\ contents t' = [10; 30].
Proof. eexists. split; vm_compute; reflexivity. Qed.
(** Finding: an index that is not in the tuple removes its last element. *)
Theorem C12_absent_index_refuted : forall e t i, wf t -> 1 <= t_len t -> t_len t <= i < 2^32 ->
  exists t', tuple_delete e t (PN_NUM i) = Ok t' /\ contents t' = removelast (contents t).
Proof.
  intros e t i W Hl Hi. pose proof (zlen_contents t W) as L. pose proof W as [H1 [H2 H3]].
  unfold tuple_delete. destruct (t_len t =? 0) eqn:E; [lia|].
  rewrite PN_INT_NUM by (apply repb_spec; unfold two62; lia). rewrite u32_small by lia.
  destruct (i <? t_len t) eqn:E2; [lia|]. cbn [bind]. eexists. split; [reflexivity|].
  rewrite removelast_firstn_len. unfold contents, ztake. cbn [t_len t_mem].
  rewrite firstn_firstn, firstn_length. f_equal. unfold zlen in *. lia.
Qed.
Print Assumptions C12_absent_index_refuted.

(** ** C13: slice *)
(** elements number a..b-1 of a list *)
Definition segment (a b : Z) (l : list Z) : list Z := firstn (Z.to_nat (b - a)) (skipn (Z.to_nat a) l).
(** index as written, counted from the end when negative *)
Definition from_end (l : list Z) (i : Z) : Z := if i <? 0 then Z.of_nat (length l) + i else i.

Lemma slice_core e t i l : wf t -> 0 <= i -> 1 <= l -> i + l <= t_len t ->
  exists t', (do t2 <- NEW_TUPLE e l;
         do m <- memcpy e (t_mem t2) (t_mem t) i l;
         Ok (Some (mkT (t_len t2) l m))) = Ok (Some t') /\ wf t' /\ contents t' = zsub (contents t) i l.
Proof.
  intros W Hi Hl Hs. pose proof W as [H1 [H2 H3]]. unfold NEW_TUPLE.
  destruct (alloc_words_ok e l) as [m [E L]]; [lia|]. rewrite E. cbn [bind t_mem t_len].
  rewrite memcpy_ok by lia. cbn [bind]. eexists. split; [reflexivity|].
  unfold wf. cbn [t_len t_alloc t_mem]. rewrite zlen_zsub by lia. split; [lia|].
  unfold contents at 1. cbn [t_len t_mem]. pose proof (zlen_contents t W).
  apply znth_ext; [rewrite zlen_ztake, zlen_zsub; rewrite ?zlen_zsub; lia|].
  intros k Hk. rewrite zlen_ztake in Hk by (rewrite zlen_zsub; lia). rewrite znth_ztake by lia.
  rewrite !znth_zsub by lia. rewrite znth_contents by lia. reflexivity.
Qed.

(** both bounds inside the tuple: the elements between them, inclusively, in
    whichever order the bounds are given *)
Theorem C13_slice : forall e t i j, wf t ->
  let a := from_end (contents t) i in let b := from_end (contents t) j in
  - t_len t <= i < t_len t -> - t_len t <= j < t_len t ->
  exists t', tuple_slice e t (PN_NUM i) (PN_NUM j) = Ok (Some t') /\ wf t' /\
    contents t' = segment (Z.min a b) (Z.max a b + 1) (contents t).
Proof.
  intros e t i j W a b Hi Hj. pose proof (zlen_contents t W) as L. unfold zlen in L. pose proof W as [H1 [H2 H3]].
  assert (Ea : a = if i <? 0 then t_len t + i else i) by (unfold a, from_end; rewrite L; reflexivity).
  assert (Eb : b = if j <? 0 then t_len t + j else j) by (unfold b, from_end; rewrite L; reflexivity).
  clearbody a b.
  unfold tuple_slice. pose proof (PN_NUM_is_int i) as Ii. pose proof (PN_NUM_is_int j) as Ij.
  destruct (Z.eqb_spec (PN_NUM i) 0) as [E0|_]; [rewrite E0 in Ii; discriminate|].
  destruct (Z.eqb_spec (PN_NUM j) 0) as [E0|_]; [rewrite E0 in Ij; discriminate|].
  rewrite !PN_INT_NUM by (apply repb_spec; unfold two62; lia). rewrite <- Ea, <- Eb.
  assert (Ha : 0 <= a < t_len t) by (rewrite Ea; destruct (i <? 0) eqn:?; lia).
  assert (Hb : 0 <= b < t_len t) by (rewrite Eb; destruct (j <? 0) eqn:?; lia).
  unfold segment.
  destruct (b - a <? 0) eqn:E1; cbn beta iota.
  - destruct (Z.abs (b - a) + 1 >? t_len t) eqn:E2; [lia|].
    destruct ((Z.abs (b - a) + 1 =? 0) || (b >=? t_len t)) eqn:E3; [lia|].
    destruct (slice_core e t b (Z.abs (b - a) + 1) W) as [t' [E [W' C]]]; try lia.
    exists t'. split; [exact E|]. split; [exact W'|]. rewrite C. unfold zsub.
    replace (Z.max a b + 1 - Z.min a b) with (Z.abs (b - a) + 1) by lia.
    replace (Z.min a b) with b by lia. reflexivity.
  - destruct (b - a + 1 >? t_len t) eqn:E2; [lia|].
    destruct ((b - a + 1 =? 0) || (a >=? t_len t)) eqn:E3; [lia|].
    destruct (slice_core e t a (b - a + 1) W) as [t' [E [W' C]]]; try lia.
    exists t'. split; [exact E|]. split; [exact W'|]. rewrite C. unfold zsub.
    replace (Z.max a b + 1 - Z.min a b) with (b - a + 1) by lia.
    replace (Z.min a b) with a by lia. reflexivity.
Qed.
Print Assumptions C13_slice.
(** one bound at the first element and the other past the end: the length is limited and
    the whole tuple is returned *)
Theorem C13_slice_overshoot : forall e t i j, wf t -> 0 < t_len t ->
  let a := from_end (contents t) i in let b := from_end (contents t) j in
  - two62 <= i < two62 -> - two62 <= j < two62 ->
  Z.min a b = 0 -> t_len t <= Z.max a b ->
  exists t', tuple_slice e t (PN_NUM i) (PN_NUM j) = Ok (Some t') /\ wf t' /\ contents t' = contents t.
Proof.
  intros e t i j W Hl a b Hi Hj Hmin Hmax. pose proof (zlen_contents t W) as L. pose proof L as L'. unfold zlen in L. pose proof W as [H1 [H2 H3]].
  assert (Ea : a = if i <? 0 then t_len t + i else i) by (unfold a, from_end; rewrite L; reflexivity).
  assert (Eb : b = if j <? 0 then t_len t + j else j) by (unfold b, from_end; rewrite L; reflexivity).
  clearbody a b.
  unfold tuple_slice. pose proof (PN_NUM_is_int i) as Ii. pose proof (PN_NUM_is_int j) as Ij.
  destruct (Z.eqb_spec (PN_NUM i) 0) as [E0|_]; [rewrite E0 in Ii; discriminate|].
  destruct (Z.eqb_spec (PN_NUM j) 0) as [E0|_]; [rewrite E0 in Ij; discriminate|].
  rewrite !PN_INT_NUM by (apply repb_spec; unfold two62 in *; lia). rewrite <- Ea, <- Eb.
  assert (Full : zsub (contents t) 0 (t_len t) = contents t).
  { unfold zsub, zdrop, ztake. change (Z.to_nat 0) with 0%nat. cbn [skipn].
    rewrite <- L. rewrite Nat2Z.id. apply firstn_all. }
  destruct (slice_core e t 0 (t_len t) W) as [t' [E [W' C]]]; try lia.
  exists t'.
  destruct (b - a <? 0) eqn:E1; cbn beta iota.
  - assert (Zb : b = 0) by lia. rewrite Zb in *.
    destruct (Z.abs (0 - a) + 1 >? t_len t) eqn:E2; [|lia].
    destruct ((t_len t =? 0) || (0 >=? t_len t)) eqn:E3; [lia|].
    split; [exact E|]. split; [exact W'|]. rewrite C. exact Full.
  - assert (Za : a = 0) by lia. rewrite Za in *.
    destruct (b - 0 + 1 >? t_len t) eqn:E2; [|lia].
    destruct ((t_len t =? 0) || (0 >=? t_len t)) eqn:E3; [lia|].
    split; [exact E|]. split; [exact W'|]. rewrite C. exact Full.
Qed.
Print Assumptions C13_slice_overshoot.
(** without an end: up to the end of the tuple; a start beyond the end gives nil *)
Theorem C13_slice_to_end : forall e t i, wf t -> - t_len t <= i < 2^62 ->
  let a := from_end (contents t) i in
  if a <? t_len t
  then exists t', tuple_slice e t (PN_NUM i) PN_NIL = Ok (Some t') /\ contents t' = segment a (t_len t) (contents t)
  else tuple_slice e t (PN_NUM i) PN_NIL = Ok None.
Proof.
  intros e t i W Hi a. pose proof (zlen_contents t W) as L. unfold zlen in L. pose proof W as [H1 [H2 H3]].
  assert (Ea : a = if i <? 0 then t_len t + i else i) by (unfold a, from_end; rewrite L; reflexivity).
  clearbody a. unfold tuple_slice. pose proof (PN_NUM_is_int i) as Ii.
  destruct (Z.eqb_spec (PN_NUM i) 0) as [E0|_]; [rewrite E0 in Ii; discriminate|].
  rewrite !PN_INT_NUM by (apply repb_spec; unfold two62; lia). rewrite <- Ea.
  assert (Ha : 0 <= a) by (rewrite Ea; destruct (i <? 0) eqn:?; lia).
  destruct (Z.eqb_spec PN_NIL 0) as [_|N]; [|exfalso; apply N; reflexivity].
  destruct (a <? t_len t) eqn:E1.
  - destruct ((t_len t - a =? 0) || (a >=? t_len t)) eqn:E2; [lia|].
    destruct (slice_core e t a (t_len t - a) W) as [t' [E [W' C]]]; try lia.
    exists t'. split; [exact E|]. rewrite C. reflexivity.
  - destruct ((t_len t - a =? 0) || (a >=? t_len t)) eqn:E2; [reflexivity|lia].
Qed.
Print Assumptions C13_slice_to_end.
Example C13_instances : exists t', tuple_slice env0 (mkT 3 3 [10; 20; 30]) (PN_NUM (-1)) (PN_NUM 1) = Ok (Some t')
  /\ contents t' = [20; 30].
Proof. eexists. split; vm_compute; reflexivity. Qed.
(** Finding: "permit overshoots" only limits the length, not the range: an end
    past the tuple reads outside it *)
Theorem C13_overshoot_refuted : exists t, wf t /\ contents t = [10; 20; 30] /\
  forall e, tuple_slice e t (PN_NUM 1) (PN_NUM 5) = UB.
Proof.
  exists (mkT 3 3 [10; 20; 30]). split; [unfold wf, zlen; cbn; lia|]. split; [reflexivity|]. intros e. reflexivity.
Qed.
Print Assumptions C13_overshoot_refuted.
Theorem C13_negative_start_refuted : exists t, wf t /\ contents t = [10; 20; 30] /\
  forall e, tuple_slice e t (PN_NUM (-5)) PN_NIL = UB.
Proof.
  exists (mkT 3 3 [10; 20; 30]). split; [unfold wf, zlen; cbn; lia|]. split; [reflexivity|]. intros e. reflexivity.
Qed.
Print Assumptions C13_negative_start_refuted.
