(** Properties C14-C16: reversing, higher-order operations, binary search. *)
From Coq Require Import ZifyBool Permutation.
From Verif Require Import Base WordModel WordProofs Arr TupleModel TupleProofs.
Ltac Zify.zify_post_hook ::= Z.div_mod_to_equations.

(** ** C14 *)
Lemma SWAP_ok m a b : 0 <= a < zlen m -> 0 <= b < zlen m -> SWAP m a b = Ok (swapped m a b).
Proof.
  intros Ha Hb. unfold SWAP. destruct (Z.eqb_spec a b) as [->|N].
  - rewrite swapped_same by assumption. reflexivity.
  - rewrite !rd_ok by assumption. cbn [bind]. rewrite wr_ok by assumption. cbn [bind].
    set (m1 := upd m a (Z.lxor (znth m a) (znth m b))).
    assert (L1 : zlen m1 = zlen m) by (apply zlen_upd; assumption).
    rewrite !rd_ok by lia. cbn [bind]. rewrite wr_ok by lia. cbn [bind].
    assert (X1 : znth m1 b = znth m b) by (apply znth_upd_other; lia).
    assert (X2 : znth m1 a = Z.lxor (znth m a) (znth m b)) by (apply znth_upd_same; lia).
    rewrite X1, X2.
    assert (X3 : Z.lxor (znth m b) (Z.lxor (znth m a) (znth m b)) = znth m a).
    { rewrite Z.lxor_comm, Z.lxor_assoc, Z.lxor_nilpotent, Z.lxor_0_r. reflexivity. }
    rewrite X3. set (m2 := upd m1 b (znth m a)).
    assert (L2 : zlen m2 = zlen m) by (subst m2; rewrite zlen_upd; lia).
    rewrite !rd_ok by lia. cbn [bind]. rewrite wr_ok by lia.
    assert (X4 : znth m2 a = Z.lxor (znth m a) (znth m b)) by (subst m2; rewrite znth_upd_other; lia || exact X2).
    assert (X5 : znth m2 b = znth m a) by (apply znth_upd_same; lia).
    rewrite X4, X5.
    assert (X6 : Z.lxor (Z.lxor (znth m a) (znth m b)) (znth m a) = znth m b).
    { rewrite (Z.lxor_comm (znth m a)), Z.lxor_assoc, Z.lxor_nilpotent, Z.lxor_0_r. reflexivity. }
    rewrite X6. f_equal. apply znth_ext.
    + rewrite zlen_upd, zlen_swapped by lia. lia.
    + intros i Hi. rewrite zlen_upd in Hi by lia. rewrite znth_swapped by lia.
      rewrite znth_upd by lia. subst m2 m1. rewrite znth_upd by lia. rewrite znth_upd by lia.
      destruct (Z.eqb_spec a i), (Z.eqb_spec b i), (Z.eqb_spec i b), (Z.eqb_spec i a); try lia; subst; reflexivity.
Qed.

Lemma znth_rev l i : 0 <= i < zlen l -> znth (rev l) i = znth l (zlen l - 1 - i).
Proof.
  intros H. unfold znth, zlen in *. rewrite rev_nth by lia. f_equal. lia.
Qed.

Lemma reverse_walk len : 0 <= len < 2^28 -> forall l k m, 0 <= k -> k + zlen l = len -> zlen m = len ->
  exists m', walk (R := Empty_set) (fun i v m => do m' <- wr m (u64 (u64 (len - 1) - i)) v; Ok (inl m')) k l m
             = Ok (inl m') /\ zlen m' = len /\
    forall i, 0 <= i < len -> znth m' i = if i <? len - k then znth l (len - 1 - i - k) else znth m i.
Proof.
  intros Hlen l. induction l as [|v l IH]; intros k m Hk Hs Hm.
  - exists m. cbn. rewrite zlen_nil in Hs. repeat split; try assumption.
    intros i Hi. destruct (i <? len - k) eqn:E; [lia|reflexivity].
  - rewrite zlen_cons in Hs. pose proof (zlen_nonneg l). cbn [walk].
    assert (U : u64 (u64 (len - 1) - k) = len - 1 - k) by (unfold u64, two64; lia).
    rewrite U. rewrite wr_ok by lia. cbn [bind].
    destruct (IH (k + 1) (upd m (len - 1 - k) v)) as [m' [E [L F]]]; [lia|lia|rewrite zlen_upd; lia|].
    exists m'. split; [exact E|]. split; [exact L|]. intros i Hi. rewrite F by lia.
    destruct (i <? len - (k + 1)) eqn:E1; destruct (i <? len - k) eqn:E2; try lia.
    + rewrite znth_consS by lia. f_equal; lia.
    + replace i with (len - 1 - k) by lia. rewrite znth_upd_same by lia.
      replace (len - 1 - (len - 1 - k) - k) with 0 by lia. reflexivity.
    + rewrite znth_upd_other by lia. reflexivity.
Qed.

Theorem C14_reverse : forall e t, wf t ->
  exists t', tuple_reverse e t = Ok t' /\ wf t' /\ contents t' = rev (contents t).
Proof.
  intros e t W. pose proof W as [H1 [H2 H3]]. unfold tuple_reverse.
  unfold tuple_with_size, NEW_TUPLE. destruct (alloc_words_ok e (t_len t)) as [m [E L]]; [lia|].
  rewrite E. cbn [bind t_mem t_len t_alloc]. rewrite TUPLE_EACH_ok by assumption.
  pose proof (zlen_contents t W) as LC.
  destruct (reverse_walk (t_len t) ltac:(lia) (contents t) 0 m) as [m' [Em [Lm F]]]; try lia.
  rewrite Em. cbn [bind]. eexists. split; [reflexivity|]. unfold wf. cbn [t_len t_alloc t_mem]. split; [lia|].
  unfold contents at 1. cbn [t_len t_mem]. apply znth_ext.
  - rewrite zlen_ztake, zlen_rev by lia. lia.
  - intros i Hi. rewrite zlen_ztake in Hi by lia. rewrite znth_ztake by lia. rewrite znth_rev by lia.
    rewrite F by lia. destruct (i <? t_len t - 0) eqn:E1; [|lia]. f_equal; lia.
Qed.
Print Assumptions C14_reverse.

Lemma nreverse_ok len : forall n i m, 0 <= i -> 0 <= len <= zlen m -> i + Z.of_nat n = len / 2 ->
  exists m', nreverse_loop m len i n = Ok m' /\ zlen m' = zlen m /\
    forall k, 0 <= k -> znth m' k = if (i <=? k) && (k <? len - i) then znth m (len - 1 - k) else znth m k.
Proof.
  induction n as [|n IH]; intros i m Hi Hl Hn; cbn [nreverse_loop].
  - exists m. repeat split. intros k Hk. destruct ((i <=? k) && (k <? len - i)) eqn:E; [|reflexivity].
    f_equal; lia.
  - rewrite SWAP_ok by lia. cbn [bind].
    destruct (IH (i + 1) (swapped m (len - i - 1) i)) as [m' [E [L F]]]; [lia|rewrite zlen_swapped; lia|lia|].
    exists m'. rewrite zlen_swapped in L by lia. split; [exact E|]. split; [exact L|].
    intros k Hk. rewrite F by lia.
    destruct ((i + 1 <=? k) && (k <? len - (i + 1))) eqn:E1;
    destruct ((i <=? k) && (k <? len - i)) eqn:E2; try lia;
    rewrite znth_swapped by lia.
    + destruct (len - 1 - k =? i) eqn:E3; [lia|]. destruct (len - 1 - k =? len - i - 1) eqn:E4; [lia|]. reflexivity.
    + destruct (Z.eqb_spec k i) as [->|N]; [f_equal; lia|].
      destruct (Z.eqb_spec k (len - i - 1)) as [->|N2]; [f_equal; lia|]. lia.
    + destruct (Z.eqb_spec k i) as [->|N]; [lia|].
      destruct (Z.eqb_spec k (len - i - 1)) as [->|N2]; [lia|]. reflexivity.
Qed.
(** in place: same object, capacity and storage beyond the length are not touched *)
Theorem C14_nreverse : forall t, wf t ->
  exists t', tuple_nreverse t = Ok t' /\ wf t' /\ contents t' = rev (contents t) /\
             t_alloc t' = t_alloc t /\ zdrop (t_len t) (t_mem t') = zdrop (t_len t) (t_mem t).
Proof.
  intros t W. pose proof W as [H1 [H2 H3]]. unfold tuple_nreverse.
  destruct (nreverse_ok (t_len t) (Z.to_nat (t_len t / 2)) 0 (t_mem t)) as [m' [E [L F]]]; try lia.
  rewrite E. cbn [bind]. eexists. split; [reflexivity|]. unfold wf. cbn [t_len t_alloc t_mem].
  split; [lia|]. pose proof (zlen_contents t W) as LC. split; [|split; [reflexivity|]].
  - unfold contents at 1. cbn [t_len t_mem]. apply znth_ext.
    + rewrite zlen_ztake, zlen_rev by lia. lia.
    + intros i Hi. rewrite zlen_ztake in Hi by lia. rewrite znth_ztake by lia. rewrite znth_rev by lia.
      rewrite F by lia. destruct ((0 <=? i) && (i <? t_len t - 0)) eqn:E1; [|lia].
      rewrite znth_contents by lia. f_equal; lia.
  - apply znth_ext; [rewrite !zlen_zdrop by lia; lia|]. intros i Hi. rewrite zlen_zdrop in Hi by lia.
    rewrite !znth_zdrop by lia. rewrite F by lia.
    destruct ((0 <=? t_len t + i) && (t_len t + i <? t_len t - 0)) eqn:E1; [lia|reflexivity].
Qed.
Print Assumptions C14_nreverse.
Theorem C14_involution_and_multiset : forall e t, wf t ->
  exists t1 t2, tuple_reverse e t = Ok t1 /\ tuple_reverse e t1 = Ok t2 /\ contents t2 = contents t /\
                Permutation (contents t1) (contents t).
Proof.
  intros e t W. destruct (C14_reverse e t W) as [t1 [E1 [W1 C1]]]. destruct (C14_reverse e t1 W1) as [t2 [E2 [W2 C2]]].
  exists t1, t2. rewrite C2, C1, rev_involutive. repeat split; try assumption. symmetry. apply Permutation_rev.
Qed.
Print Assumptions C14_involution_and_multiset.
Theorem C14_nreverse_twice : forall t, wf t ->
  exists t1 t2, tuple_nreverse t = Ok t1 /\ tuple_nreverse t1 = Ok t2 /\ contents t2 = contents t.
Proof.
  intros t W. destruct (C14_nreverse t W) as [t1 [E1 [W1 [C1 _]]]]. destruct (C14_nreverse t1 W1) as [t2 [E2 [W2 [C2 _]]]].
  exists t1, t2. rewrite C2, C1, rev_involutive. auto.
Qed.
Print Assumptions C14_nreverse_twice.
Example C14_instances : wf (mkT 3 4 [1; 2; 3; 9]) /\
  exists t', tuple_nreverse (mkT 3 4 [1; 2; 3; 9]) = Ok t' /\ t_mem t' = [3; 2; 1; 9].
Proof. split; [unfold wf, zlen; cbn; lia|]. eexists. split; vm_compute; reflexivity. Qed.

(** ** C15: each, map, filter, reduce, find, first, last *)
(** Specification: a block is a function of its arguments and of an outer
    state (its side effects); the operations thread the state through the
    elements in order. *)
Fixpoint map_state {S} (f : Z -> S -> S * Z) (l : list Z) (s : S) : S * list Z :=
  match l with
  | [] => (s, [])
  | v :: r => let '(s1, x) := f v s in let '(s2, xs) := map_state f r s1 in (s2, x :: xs)
  end.
Fixpoint filter_state {S} (f : nat -> Z -> S -> S * Z) (k : nat) (l : list Z) (s : S) : S * list Z :=
  match l with
  | [] => (s, [])
  | v :: r => let '(s1, x) := f k v s in let '(s2, xs) := filter_state f (Datatypes.S k) r s1 in
              (s2, if PN_TEST x then v :: xs else xs)
  end.
Fixpoint each_state {S} (f : nat -> Z -> S -> S * Z) (k : nat) (l : list Z) (s : S) : S :=
  match l with
  | [] => s
  | v :: r => each_state f (Datatypes.S k) r (fst (f k v s))
  end.
Fixpoint fold_state {S} (f : Z -> Z -> S -> S * Z) (acc : Z) (l : list Z) (s : S) : S * Z :=
  match l with
  | [] => (s, acc)
  | v :: r => let '(s1, a) := f acc v s in fold_state f a r s1
  end.
(** the block the implementation calls: a total C function *)
Definition blk1 {S} (f : Z -> S -> S * Z) : block1 S := fun v s => Ok (f v s).
Definition blk2 {S} (f : Z -> Z -> S -> S * Z) : block2 S := fun a b s => Ok (f a b s).

Lemma each_walk {S} (with_index : bool) (f1 : Z -> S -> S * Z) (f2 : Z -> Z -> S -> S * Z) l : forall k s,
  walk (R := Empty_set) (fun i v s =>
     if with_index then do (s', _) <- blk2 f2 v (PN_NUM i) s; Ok (inl s')
     else do (s', _) <- blk1 f1 v s; Ok (inl s')) (Z.of_nat k) l s
  = Ok (inl (each_state (fun i v s => if with_index then f2 v (PN_NUM (Z.of_nat i)) s else f1 v s) k l s)).
Proof.
  induction l as [|v l IH]; intros k s; [reflexivity|]. cbn [walk each_state]. unfold blk1, blk2.
  replace (Z.of_nat k + 1) with (Z.of_nat (Datatypes.S k)) by lia.
  destruct with_index; cbn [bind].
  - destruct (f2 v (PN_NUM (Z.of_nat k)) s) as [s' x]; cbn [bind fst]. apply IH.
  - destruct (f1 v s) as [s' x]; cbn [bind fst]. apply IH.
Qed.
Theorem C15_each : forall S t (with_index : bool) (f1 : Z -> S -> S * Z) (f2 : Z -> Z -> S -> S * Z) s, wf t ->
  tuple_each t with_index (blk1 f1) (blk2 f2) s =
  Ok (each_state (fun i v s => if with_index then f2 v (PN_NUM (Z.of_nat i)) s else f1 v s) 0 (contents t) s).
Proof.
  intros S t w f1 f2 s W. unfold tuple_each. rewrite TUPLE_EACH_ok by assumption.
  change 0 with (Z.of_nat 0). rewrite each_walk. reflexivity.
Qed.
Print Assumptions C15_each.

Lemma map_walk {S} (f : Z -> S -> S * Z) len : forall l k s m, 0 <= k -> k + zlen l = len -> zlen m = len ->
  exists m', walk (S := S * list Z) (R := Empty_set) (fun i v '(s, m) =>
     do (s', ret) <- blk1 f v s; do m' <- wr m i ret; Ok (inl (s', m'))) k l (s, m)
    = Ok (inl (fst (map_state f l s), m')) /\ zlen m' = len /\
    ztake k m' = ztake k m /\ zdrop k m' = snd (map_state f l s).
Proof.
  induction l as [|v l IH]; intros k s m Hk Hs Hm.
  - rewrite zlen_nil in Hs. exists m. cbn [walk map_state fst snd]. repeat split; try assumption.
    apply zlen_0. rewrite zlen_zdrop by lia. lia.
  - rewrite zlen_cons in Hs. pose proof (zlen_nonneg l). cbn [walk map_state]. unfold blk1 at 1. cbn [bind].
    destruct (f v s) as [s1 x] eqn:Ef. rewrite wr_ok by lia. cbn [bind].
    destruct (IH (k + 1) s1 (upd m k x)) as [m' [E [L [T D]]]]; [lia|lia|rewrite zlen_upd; lia|].
    exists m'. rewrite E. destruct (map_state f l s1) as [s2 xs]. cbn [fst snd] in *.
    split; [reflexivity|]. split; [exact L|].
    assert (N : forall i, 0 <= i < k + 1 -> znth m' i = znth (upd m k x) i).
    { intros i Hi. rewrite <- (znth_ztake m' (k + 1) i) by lia. rewrite T. apply znth_ztake. lia. }
    split.
    + apply znth_ext; [rewrite !zlen_ztake by lia; lia|]. intros i Hi. rewrite zlen_ztake in Hi by lia.
      rewrite !znth_ztake by lia. rewrite N by lia. apply znth_upd_other; lia.
    + rewrite <- D. apply znth_ext; [rewrite zlen_cons, !zlen_zdrop by lia; lia|].
      intros i Hi. rewrite zlen_zdrop in Hi by lia. rewrite znth_zdrop by lia.
      destruct (Z.eq_dec i 0) as [->|N0].
      * rewrite Z.add_0_r, znth_cons0, N by lia. apply znth_upd_same. lia.
      * rewrite znth_consS by lia. rewrite znth_zdrop by lia. f_equal; lia.
Qed.
Theorem C15_map : forall S e t (f : Z -> S -> S * Z) s, wf t ->
  exists t', tuple_map e t (blk1 f) s = Ok (fst (map_state f (contents t) s), t') /\ wf t' /\
             contents t' = snd (map_state f (contents t) s).
Proof.
  intros S e t f s W. pose proof W as [H1 [H2 H3]]. unfold tuple_map, NEW_TUPLE.
  destruct (alloc_words_ok e (t_len t)) as [m [E L]]; [lia|]. rewrite E. cbn [bind t_mem t_len t_alloc].
  rewrite TUPLE_EACH_ok by assumption. pose proof (zlen_contents t W) as LC.
  destruct (map_walk f (t_len t) (contents t) 0 s m) as [m' [Em [Lm [T D]]]]; try lia.
  rewrite Em. cbn [bind]. eexists. split; [reflexivity|]. unfold wf. cbn [t_len t_alloc t_mem]. split; [lia|].
  rewrite <- D. change (zdrop 0 m') with m'. unfold contents, ztake. cbn [t_len t_mem]. apply firstn_all2. unfold zlen in Lm. lia.
Qed.
Print Assumptions C15_map.

Lemma filter_walk {S} e (with_index : bool) (f1 : Z -> S -> S * Z) (f2 : Z -> Z -> S -> S * Z) l : forall k s o,
  wf o -> 1 <= t_alloc o -> t_len o + zlen l <= 2^26 ->
  let f := fun i v s => if with_index then f2 v (PN_NUM (Z.of_nat i)) s else f1 v s in
  exists o', walk (S := S * tuple) (R := Empty_set) (fun i v '(s, o) =>
     do (s', ret) <- (if with_index then blk2 f2 v (PN_NUM i) s else blk1 f1 v s);
     if PN_TEST ret then do o' <- tuple_push e o v; Ok (inl (s', o')) else Ok (inl (s', o))) (Z.of_nat k) l (s, o)
  = Ok (inl (fst (filter_state f k l s), o')) /\ wf o' /\ contents o' = contents o ++ snd (filter_state f k l s).
Proof.
  induction l as [|v l IH]; intros k s o W A Hl f.
  - exists o. cbn [walk filter_state fst snd]. rewrite app_nil_r. auto.
  - rewrite zlen_cons in Hl. pose proof (zlen_nonneg l). cbn [walk filter_state].
    assert (X : (if with_index then blk2 f2 v (PN_NUM (Z.of_nat k)) s else blk1 f1 v s) = Ok (f k v s))
      by (unfold f, blk1, blk2; destruct with_index; reflexivity).
    rewrite X. cbn [bind]. destruct (f k v s) as [s1 x].
    replace (Z.of_nat k + 1) with (Z.of_nat (Datatypes.S k)) by lia.
    destruct (PN_TEST x) eqn:Et.
    + destruct (tuple_push_ok e o v W A) as [o1 [Eo [W1 [A1 C1]]]]; [lia|]. rewrite Eo. cbn [bind].
      destruct (IH (Datatypes.S k) s1 o1 W1 ltac:(lia)) as [o' [E' [W' C']]].
      { rewrite <- (zlen_contents o1 W1), C1, zlen_app, zlen_cons, zlen_nil, zlen_contents by assumption. lia. }
      exists o'. unfold f. rewrite E'. fold f. fold f in C'.
      destruct (filter_state f (Datatypes.S k) l s1) as [s2 xs]. cbn [fst snd] in *.
      split; [reflexivity|]. split; [exact W'|]. rewrite C', C1, <- app_assoc. reflexivity.
    + cbn [bind]. destruct (IH (Datatypes.S k) s1 o W A ltac:(lia)) as [o' [E' [W' C']]].
      exists o'. unfold f. rewrite E'. fold f. fold f in C'.
      destruct (filter_state f (Datatypes.S k) l s1) as [s2 xs]. cbn [fst snd] in *. auto.
Qed.
Theorem C15_filter : forall S e t (with_index : bool) (f1 : Z -> S -> S * Z) (f2 : Z -> Z -> S -> S * Z) s,
  wf t -> t_len t <= 2^26 ->
  let f := fun i v s => if with_index then f2 v (PN_NUM (Z.of_nat i)) s else f1 v s in
  exists t', tuple_filter e t with_index (blk1 f1) (blk2 f2) s = Ok (fst (filter_state f 0 (contents t) s), t') /\
             contents t' = snd (filter_state f 0 (contents t) s).
Proof.
  intros S e t w f1 f2 s W Hl f. unfold tuple_filter.
  destruct (tuple_empty_ok e) as [o [Eo [Wo [Ao Co]]]]. rewrite Eo. cbn [bind].
  rewrite TUPLE_EACH_ok by assumption. pose proof (zlen_contents t W). pose proof (zlen_contents o Wo) as Lo.
  rewrite Co, zlen_nil in Lo.
  destruct (filter_walk e w f1 f2 (contents t) 0 s o Wo ltac:(lia) ltac:(lia)) as [t' [E [W' C]]].
  change (Z.of_nat 0) with 0 in E. rewrite E. cbn [bind]. exists t'. rewrite C, Co. auto.
Qed.
Print Assumptions C15_filter.
(** for a block without side effects: the standard filter *)
Theorem C15_filter_pure : forall e t (p : Z -> Z), wf t -> t_len t <= 2^26 ->
  exists t', tuple_filter e t false (blk1 (fun v (s : unit) => (s, p v))) (blk2 (fun v _ s => (s, p v))) tt = Ok (tt, t') /\
             contents t' = filter (fun v => PN_TEST (p v)) (contents t).
Proof.
  intros e t p W Hl.
  destruct (C15_filter unit e t false (fun v s => (s, p v)) (fun v _ s => (s, p v)) tt W Hl) as [t' [E C]].
  exists t'. rewrite E, C. cbn beta iota.
  assert (X : forall l k, filter_state (fun _ v s => (s, p v)) k l tt = (tt, filter (fun v => PN_TEST (p v)) l)).
  { induction l as [|v l IH]; intros k; [reflexivity|]. cbn [filter_state filter]. rewrite IH.
    destruct (PN_TEST (p v)); reflexivity. }
  rewrite X. auto.
Qed.
Print Assumptions C15_filter_pure.

Lemma reduce_walk {S} (f : Z -> Z -> S -> S * Z) l : forall k s acc, 0 < k ->
  walk (S := S * Z) (R := Empty_set) (fun i v '(s, acc) =>
     if (i =? 0) && (acc =? PN_NIL) then Ok (inl (s, v))
     else do (s', r) <- blk2 f acc v s; Ok (inl (s', r))) k l (s, acc) = Ok (inl (fold_state f acc l s)).
Proof.
  induction l as [|v l IH]; intros k s acc Hk; [reflexivity|]. cbn [walk fold_state].
  destruct (Z.eqb_spec k 0); [lia|]. cbn [andb]. unfold blk2 at 1. cbn [bind].
  destruct (f acc v s) as [s1 a]. cbn [bind]. apply IH. lia.
Qed.
(** an initial value: left fold; without one (nil): left fold from the first element *)
Theorem C15_reduce : forall S t (f : Z -> Z -> S -> S * Z) initial s, wf t ->
  tuple_reduce t (blk2 f) initial s =
  Ok (if initial =? PN_NIL
      then match contents t with [] => (s, PN_NIL) | v :: r => fold_state f v r s end
      else fold_state f initial (contents t) s).
Proof.
  intros S t f initial s W. unfold tuple_reduce. rewrite TUPLE_EACH_ok by assumption.
  destruct (contents t) as [|v l]; cbn [walk].
  - cbn [bind fold_state]. destruct (Z.eqb_spec initial PN_NIL) as [->|]; reflexivity.
  - rewrite Z.eqb_refl. cbn [andb]. destruct (initial =? PN_NIL).
    + cbn [bind]. rewrite reduce_walk by lia. reflexivity.
    + unfold blk2 at 1. cbn [bind fold_state]. destruct (f initial v s) as [s1 a]. cbn [bind].
      rewrite reduce_walk by lia. reflexivity.
Qed.
Print Assumptions C15_reduce.

(** find (used by "push unless present", find_ivar, ...): the first position holding the value *)
Theorem C15_find : forall t v, wf t ->
  exists r, tuple_find t v = Ok r /\
  ((exists l1 l2, contents t = l1 ++ v :: l2 /\ ~ In v l1 /\ r = Z.of_nat (length l1)) \/
   (~ In v (contents t) /\ r = 2^32 - 1)).
Proof.
  intros t v W. unfold tuple_find. rewrite TUPLE_EACH_ok by assumption.
  assert (X : forall l k,
    (exists l1 l2, l = l1 ++ v :: l2 /\ ~ In v l1 /\
      walk (fun i w (_ : unit) => Ok (if w =? v then inr i else inl tt)) k l tt = Ok (inr (k + Z.of_nat (length l1)))) \/
    (~ In v l /\ walk (fun i w (_ : unit) => Ok (if w =? v then inr i else inl tt)) k l tt = Ok (inl tt))).
  { induction l as [|w l IH]; intros k.
    - right. split; [intros []|reflexivity].
    - cbn [walk]. destruct (Z.eqb_spec w v) as [->|N].
      + left. exists [], l. split; [reflexivity|]. split; [intros []|]. cbn [bind length]. do 2 f_equal. lia.
      + cbn [bind]. destruct (IH (k + 1)) as [[l1 [l2 [E [Ni Ew]]]]|[Ni Ew]].
        * left. exists (w :: l1), l2. rewrite E. split; [reflexivity|]. split; [intros [->|]; [apply N; reflexivity|contradiction]|].
          rewrite <- E, Ew. cbn [length]. do 2 f_equal. lia.
        * right. split; [intros [->|]; [apply N; reflexivity|contradiction]|exact Ew]. }
  destruct (X (contents t) 0) as [[l1 [l2 [E [Ni Ew]]]]|[Ni Ew]]; rewrite Ew; cbn [bind]; eexists; split; try reflexivity.
  - left. exists l1, l2. auto.
  - right. auto.
Qed.
Print Assumptions C15_find.

(** push-unless keeps a tuple without duplicates free of duplicates and returns the position of the value *)
Theorem C15_push_unless : forall e t v, wf t -> 1 <= t_alloc t -> t_len t < 2^26 -> NoDup (contents t) ->
  exists t' r, tuple_push_unless e t v = Ok (t', r) /\ NoDup (contents t') /\
    nth_error (contents t') (Z.to_nat r) = Some v /\
    (forall w, In w (contents t') <-> w = v \/ In w (contents t)) /\
    exists l2, contents t' = contents t ++ l2.
Proof.
  intros e t v W A Hl ND. pose proof (zlen_contents t W) as LC. pose proof W as [H1 [H2 H3]].
  destruct (C15_find t v W) as [r [Er H]]. unfold tuple_push_unless. rewrite Er. cbn [bind].
  destruct H as [[l1 [l2 [E [Ni Hr]]]]|[Ni Hr]].
  - assert (HL : Z.of_nat (length l1) < t_len t).
    { rewrite <- LC, E, zlen_app, zlen_cons. unfold zlen. lia. }
    unfold PN_NONE. destruct (r =? 4294967295) eqn:E1; [lia|]. cbn [negb].
    exists t, r. split; [reflexivity|]. split; [exact ND|]. split; [|split].
    + rewrite E, Hr, Nat2Z.id. rewrite nth_error_app2 by lia. rewrite Nat.sub_diag. reflexivity.
    + intros w. split; [auto|]. intros [->|]; [|assumption]. rewrite E. apply in_or_app. right. left. reflexivity.
    + exists []. rewrite app_nil_r. reflexivity.
  - subst r. unfold PN_NONE. destruct (2 ^ 32 - 1 =? 4294967295) eqn:E1; [|lia]. cbn [negb].
    destruct (tuple_push_ok e t v W A Hl) as [t' [E [W' [A' C]]]]. rewrite E. cbn [bind].
    assert (L' : t_len t' = t_len t + 1).
    { rewrite <- (zlen_contents t' W'), C, zlen_app, zlen_cons, zlen_nil. lia. }
    rewrite u32_small by lia. exists t', (t_len t' - 1). split; [reflexivity|]. rewrite C. split; [|split; [|split]].
    + apply (Permutation_NoDup (l := v :: contents t)); [apply Permutation_cons_append|]. constructor; assumption.
    + unfold zlen in LC. rewrite nth_error_app2 by lia. replace (Z.to_nat (t_len t' - 1) - length (contents t))%nat with O by lia.
      reflexivity.
    + intros w. rewrite in_app_iff. cbn [In]. intuition.
    + exists [v]. reflexivity.
Qed.
Print Assumptions C15_push_unless.

Theorem C15_first_last : forall t, wf t ->
  tuple_first t = Ok (hd PN_NIL (contents t)) /\ tuple_last t = Ok (last (contents t) PN_NIL).
Proof.
  intros t W. pose proof (zlen_contents t W) as LC. pose proof W as [H1 [H2 H3]].
  unfold tuple_first, tuple_last. destruct (t_len t <? 1) eqn:E.
  - rewrite (zlen_0 (contents t)) by lia. split; reflexivity.
  - rewrite !rd_ok by lia. rewrite <- !znth_contents by lia.
    destruct (contents t) as [|v l] eqn:EC; [rewrite zlen_nil in LC; lia|]. split; [reflexivity|].
    f_equal. rewrite <- LC. clear. revert v. induction l as [|w l IH]; intros v; [reflexivity|].
    change (last (v :: w :: l) PN_NIL) with (last (w :: l) PN_NIL). rewrite <- IH.
    rewrite !zlen_cons. pose proof (zlen_nonneg l). rewrite (znth_consS v) by lia. f_equal; lia.
Qed.
Print Assumptions C15_first_last.
Example C15_instances :
  tuple_reduce (mkT 3 3 [1; 2; 4]) (blk2 (fun a b (s : list Z) => (s ++ [b], a + b))) 10 [] = Ok ([1; 2; 4], 17).
Proof. reflexivity. Qed.

(** ** C16: binary search *)
Definition sorted_by (key : Z -> Z) (l : list Z) : Prop :=
  forall i j, (i <= j < length l)%nat -> key (nth i l 0) <= key (nth j l 0).

Lemma bsearch_ok key m xu len : 0 <= len <= zlen m ->
  (forall i j, 0 <= i <= j -> j < len -> key (znth m i) <= key (znth m j)) ->
  forall fuel i j, 0 <= i -> j < len -> i <= j + 1 -> (Z.to_nat (j - i + 1) < fuel)%nat ->
  (forall k, 0 <= k < len -> key (znth m k) = xu -> i <= k <= j) ->
  exists r, bsearch_loop key m xu i j fuel = Ok (PN_NUM r) /\
    ((0 <= r < len /\ key (znth m r) = xu) \/ (r = -1 /\ forall k, 0 <= k < len -> key (znth m k) <> xu)).
Proof.
  intros Hl Hs. induction fuel as [|fuel IH]; intros i j Hi Hj Hij Hf Hk; [lia|]. cbn [bsearch_loop].
  destruct (i <=? j) eqn:E.
  - assert (Q : Z.quot (i - j) 2 = - ((j - i) / 2)).
    { replace (i - j) with (- (j - i)) by lia. rewrite Z.quot_opp_l by lia. rewrite Z.quot_div_nonneg by lia. reflexivity. }
    rewrite Q. set (mid := j + - ((j - i) / 2)). assert (Hm : i <= mid <= j) by (unfold mid; lia).
    clearbody mid. rewrite rd_ok by lia. cbn [bind].
    destruct (Z.eqb_spec (key (znth m mid)) xu) as [Eq|Ne].
    + exists mid. split; [reflexivity|]. left. lia.
    + destruct (key (znth m mid) >? xu) eqn:G; apply IH; try lia; intros k Hk1 Hk2; specialize (Hk k Hk1 Hk2).
      * destruct (Z_lt_le_dec k mid); [lia|]. pose proof (Hs mid k ltac:(lia) ltac:(lia)). lia.
      * destruct (Z_lt_le_dec mid k); [lia|]. pose proof (Hs k mid ltac:(lia) ltac:(lia)). lia.
  - exists (-1). split; [reflexivity|]. right. split; [reflexivity|]. intros k H1 H2. specialize (Hk k H1 H2). lia.
Qed.
(** on a non-empty tuple sorted by the internal key: terminates and answers correctly *)
Theorem C16_bsearch : forall (key : Z -> Z) t x, wf t -> 1 <= t_len t -> sorted_by key (contents t) ->
  exists r, (forall fuel, (Z.to_nat (t_len t) + 2 <= fuel)%nat -> tuple_bsearch key t x fuel = Ok (PN_NUM r)) /\
    ((0 <= r /\ exists v, nth_error (contents t) (Z.to_nat r) = Some v /\ key v = key x) \/
     (r = -1 /\ forall v, In v (contents t) -> key v <> key x)).
Proof.
  intros key t x W Hl Hs. pose proof (zlen_contents t W) as LC. pose proof W as [H1 [H2 H3]].
  unfold tuple_bsearch. rewrite u32_small by lia.
  assert (HS : forall i j, 0 <= i <= j -> j < t_len t -> key (znth (t_mem t) i) <= key (znth (t_mem t) j)).
  { intros i j Hij Hj. specialize (Hs (Z.to_nat i) (Z.to_nat j)). unfold zlen in LC.
    fold (znth (contents t) i) in Hs. fold (znth (contents t) j) in Hs. rewrite !znth_contents in Hs by lia. apply Hs. lia. }
  assert (B : forall fuel, (Z.to_nat (t_len t) + 2 <= fuel)%nat ->
     exists r, bsearch_loop key (t_mem t) (key x) 0 (t_len t - 1) fuel = Ok (PN_NUM r) /\
    ((0 <= r < t_len t /\ key (znth (t_mem t) r) = key x) \/
     (r = -1 /\ forall k, 0 <= k < t_len t -> key (znth (t_mem t) k) <> key x))).
  { intros fuel Hf. apply (bsearch_ok key (t_mem t) (key x) (t_len t)); try lia; try assumption. }
  (* the result does not depend on the fuel *)
  assert (M : forall fuel i j fuel' r, (fuel <= fuel')%nat -> bsearch_loop key (t_mem t) (key x) i j fuel = Ok r ->
              bsearch_loop key (t_mem t) (key x) i j fuel' = Ok r).
  { clear. intros fuel. induction fuel as [|fuel IH]; intros i j fuel' r Hf H; [discriminate|].
    destruct fuel' as [|fuel']; [lia|]. cbn [bsearch_loop] in *. destruct (i <=? j); [|exact H].
    destruct (rd (t_mem t) (j + (i - j) ÷ 2)) as [v| |]; cbn [bind] in *; try discriminate.
    destruct (key v =? key x); [exact H|]. destruct (key v >? key x); apply IH; try assumption; lia. }
  destruct (B (Z.to_nat (t_len t) + 2)%nat (le_n _)) as [r [Er Hr]].
  exists r. split.
  - intros fuel Hf. apply (M (Z.to_nat (t_len t) + 2)%nat); assumption.
  - destruct Hr as [[Hr1 Hr2]|[Hr1 Hr2]].
    + left. split; [lia|]. exists (znth (contents t) r). rewrite znth_contents by lia. split; [|exact Hr2].
      rewrite <- znth_contents by lia. unfold znth. apply nth_error_nth'. unfold zlen in LC. lia.
    + right. split; [exact Hr1|]. intros v Hv. apply In_znth in Hv. destruct Hv as [k [Hk <-]].
      rewrite znth_contents by lia. apply Hr2. lia.
Qed.
Print Assumptions C16_bsearch.
Example C16_instances : sorted_by (fun v => v) (contents (mkT 4 4 [3; 5; 8; 9])) /\
  tuple_bsearch (fun v => v) (mkT 4 4 [3; 5; 8; 9]) 8 6 = Ok (PN_NUM 2).
Proof.
  split; [|reflexivity]. intros i j [H1 H2].
  change (contents (mkT 4 4 [3; 5; 8; 9])) with [3; 5; 8; 9] in *. cbn [length] in H2. do 4 (destruct j as [|j]; [do 4 (destruct i as [|i]; [cbn; lia|]); lia|]). lia.
Qed.
(** Finding: on an empty tuple the upper bound wraps to 2^32-1 and the search reads outside *)
Theorem C16_bsearch_empty_refuted : forall key t x, wf t -> t_len t = 0 -> zlen (t_mem t) < 2^30 ->
  forall fuel, tuple_bsearch key t x (S fuel) = UB.
Proof.
  intros key t x [H1 [H2 H3]] H0 Hz fuel. unfold tuple_bsearch. rewrite H0.
  change (u32 (0 - 1)) with 4294967295. cbn [bsearch_loop].
  change (4294967295 + (0 - 4294967295) ÷ 2) with 2147483648. change (0 <=? 4294967295) with true. cbn beta iota.
  rewrite rd_ub by lia. reflexivity.
Qed.
Print Assumptions C16_bsearch_empty_refuted.
