(** Exact characterisations for C10-C13: what indexing, writing, deleting and slicing do for
    EVERY integer index, including those outside the tuple. *)
From Coq Require Import ZifyBool.
From Verif Require Import Base WordModel WordProofs Arr TupleModel TupleProofs PropTuple.
Ltac Zify.zify_post_hook ::= Z.div_mod_to_equations.

(** C10: taking from an empty tuple is undefined for pop and for shift alike *)
Theorem C10_take_from_empty : forall e t, wf t -> t_len t = 0 -> zlen (t_mem t) < 2^32 - 1 ->
  tuple_pop e t = UB /\ tuple_shift e t = UB.
Proof.
  intros e t W L B. split; [apply C10_pop_empty_in_bounds_refuted; assumption|].
  pose proof W as [H1 [H2 H3]]. unfold tuple_shift.
  destruct (Z.eqb_spec (zlen (t_mem t)) 0) as [Z0|Z0].
  - rewrite rd_ub by lia. reflexivity.
  - pose proof (zlen_nonneg (t_mem t)). rewrite rd_ok by lia. cbn [bind]. rewrite L. unfold memmove.
    cbn [Z.ltb Z.compare]. cbn [bind Z.to_nat rd_run wr_run].
    change (u32 (0 - 1)) with 4294967295. unfold realloc_words. cbn [t_alloc t_mem].
    destruct (t_alloc t >=? 4294967295) eqn:E; [lia|]. unfold alloc_words, words_ok. reflexivity.
Qed.
Print Assumptions C10_take_from_empty.
Example C10_take_from_empty_instance : wf (mkT 0 3 [1; 2; 3]) /\ zlen [1; 2; 3] < 2^32 - 1.
Proof. unfold wf, zlen. cbn. lia. Qed.

(** C11: reading, for every integer index *)
Theorem C11_at_exact : forall t i, wf t -> -2^62 <= i < 2^62 ->
  tuple_at t (PN_NUM i) =
    if i <? - t_len t then UB
    else Ok (match list_index (contents t) i with Some v => v | None => PN_NIL end).
Proof.
  intros t i W Hr. destruct (i <? - t_len t) eqn:E.
  - apply C11_at_negative_refuted; [assumption|lia|lia].
  - apply C11_at; [assumption|assumption|lia].
Qed.
Print Assumptions C11_at_exact.
(** writing, for every integer index: an existing element is replaced, the index one past the
    end appends, a larger one turns the tuple into a table (C25), one below -len is undefined *)
Theorem C11_put_exact : forall e t i v, wf t -> 1 <= t_alloc t -> t_len t < 2^26 -> -2^62 <= i < 2^62 ->
  (i < - t_len t -> tuple_put e t (PN_NUM i) v = UB) /\
  (- t_len t <= i < t_len t -> exists t', tuple_put e t (PN_NUM i) v = Ok (inl t') /\ wf t' /\
      contents t' = set_nth (Z.to_nat (if i <? 0 then i + t_len t else i)) v (contents t)) /\
  (i = t_len t -> exists t', tuple_put e t (PN_NUM i) v = Ok (inl t') /\ wf t' /\ contents t' = contents t ++ [v]) /\
  (t_len t < i -> tuple_put e t (PN_NUM i) v = Ok (inr tt)).
Proof.
  intros e t i v W Ha Hl Hr. pose proof W as [H1 [H2 H3]].
  assert (R : repb i = true) by (apply repb_spec; unfold two62; lia).
  split; [|split; [|split]]; intros Hi.
  - apply C11_put_negative_refuted; [assumption|lia|lia].
  - destruct (tuple_put_ok e t i v W Ha Hl R) as [t' [E [W' [A C]]]]; [unfold norm; destruct (i <? 0) eqn:?; lia|].
    exists t'. split; [exact E|]. split; [exact W'|]. rewrite C. unfold norm.
    pose proof (zlen_contents t W). rewrite upd_set_nth; [reflexivity|]. destruct (i <? 0) eqn:?; lia.
  - destruct (tuple_put_push e t i v W Ha Hl Hi) as [t' [E [W' [A C]]]]. exists t'. auto.
  - unfold tuple_put. rewrite PN_NUM_is_int, PN_INT_NUM by assumption.
    destruct (i <? 0) eqn:?; [lia|]. destruct (i <? t_len t) eqn:?; [lia|]. destruct (i =? t_len t) eqn:?; [lia|]. reflexivity.
Qed.
Print Assumptions C11_put_exact.
Example C11_exact_instance : wf (mkT 2 3 [10; 20; 0]) /\ tuple_put env0 (mkT 2 3 [10; 20; 0]) (PN_NUM 5) 1 = Ok (inr tt)
  /\ tuple_at (mkT 2 3 [10; 20; 0]) (PN_NUM (-3)) = UB.
Proof. unfold wf, zlen. cbn. repeat split; lia. Qed.

(** C12: delete and remove for every integer index: the index is reduced to 32 bits; if the
    tuple has that element it goes, otherwise the last one does; an empty tuple is left alone *)
Theorem C12_delete_exact : forall e g t i, e_after e = Some g -> wf t -> -2^62 <= i < 2^62 ->
  exists t', tuple_delete e t (PN_NUM i) = Ok t' /\ wf t' /\
    contents t' = (if i mod 2^32 <? t_len t then without (Z.to_nat (i mod 2^32)) (contents t) else removelast (contents t)).
Proof.
  intros e g t i Hg W Hr. pose proof (zlen_contents t W) as L. pose proof W as [H1 [H2 H3]].
  assert (R : repb i = true) by (apply repb_spec; unfold two62; lia).
  destruct (t_len t =? 0) eqn:E0.
  { unfold tuple_delete. rewrite E0. exists t. split; [reflexivity|]. split; [exact W|].
    destruct (contents t); [|rewrite zlen_cons in L; pose proof (zlen_nonneg l); lia].
    destruct (i mod 2^32 <? t_len t) eqn:?; [lia|reflexivity]. }
  destruct (i mod 2^32 <? t_len t) eqn:E1.
  - destruct (tuple_delete_ok e g t (i mod 2^32) Hg W) as [t' [E [W' [A C]]]]; [lia|]. exists t'.
    split; [|split; [exact W'|rewrite C; apply del_without; lia]]. rewrite <- E. unfold tuple_delete. rewrite E0.
    rewrite !PN_INT_NUM by (try assumption; apply repb_spec; unfold two62; lia). unfold u32, two32. rewrite Z.mod_mod by lia. reflexivity.
  - unfold tuple_delete. rewrite E0, PN_INT_NUM by assumption. unfold u32, two32. change 4294967296 with (2^32).
    rewrite E1. cbn [bind]. eexists. split; [reflexivity|]. split; [unfold wf in *; cbn [t_len t_alloc t_mem]; lia|].
    rewrite removelast_firstn_len. unfold contents, ztake. cbn [t_len t_mem].
    rewrite firstn_firstn, firstn_length. f_equal. unfold zlen in *. lia.
Qed.
Print Assumptions C12_delete_exact.
Theorem C12_remove_exact : forall e g t i, e_after e = Some g -> wf t -> -2^62 <= i < 2^62 ->
  exists t', tuple_remove e t (PN_NUM i) = Ok t' /\ wf t' /\
    contents t' = (if i mod 2^32 <? t_len t then without (Z.to_nat (i mod 2^32)) (contents t) else removelast (contents t)).
Proof.
  intros e g t i Hg W Hr. pose proof (zlen_contents t W) as L. pose proof W as [H1 [H2 H3]].
  assert (R : repb i = true) by (apply repb_spec; unfold two62; lia).
  destruct (t_len t =? 0) eqn:E0.
  { unfold tuple_remove. rewrite E0. exists t. split; [reflexivity|]. split; [exact W|].
    destruct (contents t); [|rewrite zlen_cons in L; pose proof (zlen_nonneg l); lia].
    destruct (i mod 2^32 <? t_len t) eqn:?; [lia|reflexivity]. }
  destruct (i mod 2^32 <? t_len t) eqn:E1.
  - destruct (tuple_remove_ok e g t (i mod 2^32) Hg W) as [t' [E [W' C]]]; [lia|]. exists t'.
    split; [|split; [exact W'|rewrite C; apply del_without; lia]]. rewrite <- E. unfold tuple_remove. rewrite E0.
    rewrite !PN_INT_NUM by (try assumption; apply repb_spec; unfold two62; lia). unfold u32, two32. rewrite Z.mod_mod by lia. reflexivity.
  - unfold tuple_remove. rewrite E0, PN_INT_NUM by assumption. unfold u32, two32. change 4294967296 with (2^32).
    destruct (tuple_clone_ok e t W) as (c & Ec & Wc & Lc & Ac & Mc & Cc). rewrite Ec. cbn [bind]. rewrite Lc, E1. cbn [bind].
    eexists. split; [reflexivity|]. split; [unfold wf in *; cbn [t_len t_alloc t_mem]; lia|].
    rewrite <- Cc. rewrite removelast_firstn_len. unfold contents, ztake. cbn [t_len t_mem].
    rewrite firstn_firstn, firstn_length. f_equal. unfold zlen in *. lia.
Qed.
Print Assumptions C12_remove_exact.
Example C12_exact_instance : wf (mkT 3 3 [10; 20; 30]) /\
  exists t', tuple_delete env0 (mkT 3 3 [10; 20; 30]) (PN_NUM (-1)) = Ok t' /\ contents t' = [10; 20].
Proof. split; [unfold wf, zlen; cbn; lia|]. eexists. split; vm_compute; reflexivity. Qed.

(** C13: slice for every pair of integer bounds.  With a and b the bounds counted from the
    end when negative, lo the smaller, and n the number of elements from one to the other
    but at most the length of the tuple: nil when lo is past the end (or the tuple is empty);
    the n elements from lo on when they exist; stale contents of the allocation when the range
    runs past the last element but not past the allocation; undefined otherwise *)
Theorem C13_slice_exact : forall e t i j, wf t -> -2^62 <= i < 2^62 -> -2^62 <= j < 2^62 ->
  let a := from_end (contents t) i in let b := from_end (contents t) j in
  let lo := Z.min a b in let n := Z.min (Z.abs (b - a) + 1) (t_len t) in
  (t_len t <= lo \/ t_len t = 0 -> tuple_slice e t (PN_NUM i) (PN_NUM j) = Ok None) /\
  (0 <= lo < t_len t -> lo + n <= t_len t -> exists t', tuple_slice e t (PN_NUM i) (PN_NUM j) = Ok (Some t') /\ wf t' /\
      contents t' = segment lo (lo + n) (contents t)) /\
  (0 <= lo < t_len t -> t_len t < lo + n <= zlen (t_mem t) -> exists t', tuple_slice e t (PN_NUM i) (PN_NUM j) = Ok (Some t') /\ wf t' /\
      contents t' = segment lo (lo + n) (t_mem t)) /\
  (0 <= lo < t_len t -> zlen (t_mem t) < lo + n -> tuple_slice e t (PN_NUM i) (PN_NUM j) = UB) /\
  (lo < 0 < t_len t -> tuple_slice e t (PN_NUM i) (PN_NUM j) = UB).
Proof.
  intros e t i j W Hi Hj a b lo n. pose proof (zlen_contents t W) as L. pose proof L as L'. unfold zlen in L. pose proof W as [H1 [H2 H3]].
  assert (Ea : a = if i <? 0 then t_len t + i else i) by (unfold a, from_end; rewrite L; reflexivity).
  assert (Eb : b = if j <? 0 then t_len t + j else j) by (unfold b, from_end; rewrite L; reflexivity).
  clearbody a b.
  assert (K : tuple_slice e t (PN_NUM i) (PN_NUM j) =
    if (n =? 0) || (lo >=? t_len t) then Ok None
    else do t2 <- NEW_TUPLE e n; do m <- memcpy e (t_mem t2) (t_mem t) lo n; Ok (Some (mkT (t_len t2) n m))).
  { unfold tuple_slice. pose proof (PN_NUM_is_int i) as Ii. pose proof (PN_NUM_is_int j) as Ij.
    destruct (Z.eqb_spec (PN_NUM i) 0) as [E0|_]; [rewrite E0 in Ii; discriminate|].
    destruct (Z.eqb_spec (PN_NUM j) 0) as [E0|_]; [rewrite E0 in Ij; discriminate|].
    rewrite !PN_INT_NUM by (apply repb_spec; unfold two62; lia). rewrite <- Ea, <- Eb.
    destruct (b - a <? 0) eqn:E1; cbn beta iota.
    - replace (if Z.abs (b - a) + 1 >? t_len t then t_len t else Z.abs (b - a) + 1) with n by (destruct (Z.abs (b - a) + 1 >? t_len t) eqn:?; lia).
      replace b with lo by lia. reflexivity.
    - replace (if b - a + 1 >? t_len t then t_len t else b - a + 1) with n by (destruct (b - a + 1 >? t_len t) eqn:?; lia).
      replace a with lo by lia. reflexivity. }
  rewrite K. clear K Ea Eb.
  assert (Hn : 0 <= n <= t_len t) by lia. assert (Hn1 : 0 < t_len t -> 1 <= n) by lia. clearbody lo n. clear a b.
  assert (MC : forall m0, zlen m0 = n -> 0 < n -> lo < 0 \/ zlen (t_mem t) < lo + n -> memcpy e m0 (t_mem t) lo n = UB).
  { intros m0 _ Hp Hb. unfold memcpy. destruct (n <? 0) eqn:?; [lia|].
    assert (RR : forall k x, (0 < k)%nat -> x < 0 \/ zlen (t_mem t) < x + Z.of_nat k -> rd_run (mkE (e_junk e) None) (t_mem t) x k = UB).
    { induction k as [|k IH]; intros x Hk Hx; [lia|]. cbn [rd_run]. unfold rd_after. cbn [e_after].
      pose proof (zlen_nonneg (t_mem t)).
      destruct (x =? zlen (t_mem t)) eqn:Q; [reflexivity|].
      destruct (Z_lt_le_dec x 0); [rewrite rd_ub by lia; reflexivity|].
      destruct (Z_lt_le_dec x (zlen (t_mem t))); [|rewrite rd_ub by lia; reflexivity].
      rewrite rd_ok by lia. cbn [bind]. rewrite IH; [reflexivity|lia|lia]. }
    rewrite RR; [reflexivity|lia|lia]. }
  split; [|split; [|split; [|split]]].
  - intros H. replace ((n =? 0) || (lo >=? t_len t)) with true by lia. reflexivity.
  - intros Hlo Hs. replace ((n =? 0) || (lo >=? t_len t)) with false by lia.
    destruct (slice_core e t lo n W) as [t' [E [W' C]]]; try lia. exists t'. split; [exact E|]. split; [exact W'|].
    rewrite C. unfold segment, zsub. replace (lo + n - lo) with n by lia. reflexivity.
  - intros Hlo Hs. replace ((n =? 0) || (lo >=? t_len t)) with false by lia.
    unfold NEW_TUPLE. destruct (alloc_words_ok e n) as [m [E Lm]]; [lia|]. rewrite E. cbn [bind t_mem t_len].
    rewrite memcpy_ok by lia. cbn [bind]. eexists. split; [reflexivity|].
    unfold wf. cbn [t_len t_alloc t_mem]. rewrite zlen_zsub by lia. split; [lia|].
    unfold contents, segment, zsub, ztake. cbn [t_len t_mem]. rewrite firstn_firstn. f_equal. lia.
  - intros Hlo Hs. replace ((n =? 0) || (lo >=? t_len t)) with false by lia.
    unfold NEW_TUPLE. destruct (alloc_words_ok e n) as [m [E Lm]]; [lia|]. rewrite E. cbn [bind t_mem t_len].
    rewrite MC; [reflexivity|exact Lm|lia|lia].
  - intros Hlo. replace ((n =? 0) || (lo >=? t_len t)) with false by lia.
    unfold NEW_TUPLE. destruct (alloc_words_ok e n) as [m [E Lm]]; [lia|]. rewrite E. cbn [bind t_mem t_len].
    rewrite MC; [reflexivity|exact Lm|lia|lia].
Qed.
Print Assumptions C13_slice_exact.
(** without an end, for every start; without a start, the whole tuple *)
Theorem C13_slice_to_end_exact : forall e t i, wf t -> -2^62 <= i < 2^62 ->
  let a := from_end (contents t) i in
  (t_len t <= a -> tuple_slice e t (PN_NUM i) PN_NIL = Ok None) /\
  (0 <= a < t_len t -> exists t', tuple_slice e t (PN_NUM i) PN_NIL = Ok (Some t') /\ contents t' = segment a (t_len t) (contents t)) /\
  (a < 0 -> t_len t - a < 2^28 - 8 -> tuple_slice e t (PN_NUM i) PN_NIL = UB) /\
  (forall j, exists t', tuple_slice e t PN_NIL j = Ok (Some t') /\ contents t' = contents t).
Proof.
  intros e t i W Hi a. pose proof (zlen_contents t W) as L. unfold zlen in L. pose proof W as [H1 [H2 H3]].
  assert (Ea : a = if i <? 0 then t_len t + i else i) by (unfold a, from_end; rewrite L; reflexivity).
  split; [|split; [|split]].
  - intros Hge. pose proof (C13_slice_to_end e t i W ltac:(rewrite Ea in Hge; destruct (i <? 0) eqn:?; lia)) as X. fold a in X. cbv zeta in X.
    replace (a <? t_len t) with false in X by lia. exact X.
  - intros Hin. pose proof (C13_slice_to_end e t i W ltac:(rewrite Ea in Hin; destruct (i <? 0) eqn:?; lia)) as X. fold a in X. cbv zeta in X.
    replace (a <? t_len t) with true in X by lia. exact X.
  - intros Hneg Hb. clearbody a. unfold tuple_slice. pose proof (PN_NUM_is_int i) as Ii.
    destruct (Z.eqb_spec (PN_NUM i) 0) as [E0|_]; [rewrite E0 in Ii; discriminate|].
    rewrite !PN_INT_NUM by (apply repb_spec; unfold two62; lia). rewrite <- Ea.
    destruct (Z.eqb_spec PN_NIL 0) as [_|N]; [|exfalso; apply N; reflexivity].
    replace ((t_len t - a =? 0) || (a >=? t_len t)) with false by lia.
    unfold NEW_TUPLE. destruct (alloc_words_ok e (t_len t - a)) as [m [E Lm]]; [lia|]. rewrite E. cbn [bind t_mem t_len].
    unfold memcpy. destruct (t_len t - a <? 0) eqn:?; [lia|].
    destruct (Z.to_nat (t_len t - a)) as [|k] eqn:K; [lia|]. cbn [rd_run]. unfold rd_after. cbn [e_after].
    pose proof (zlen_nonneg (t_mem t)). destruct (a =? zlen (t_mem t)) eqn:?; [reflexivity|]. rewrite rd_ub by lia. reflexivity.
  - intros j. destruct (tuple_clone_ok e t W) as (c & Ec & Wc & Lc & Ac & Mc & Cc). exists c.
    unfold tuple_slice. destruct (Z.eqb_spec PN_NIL 0) as [_|N]; [|exfalso; apply N; reflexivity].
    rewrite Ec. split; [reflexivity|exact Cc].
Qed.
Print Assumptions C13_slice_to_end_exact.
(** a popped element comes back through slice *)
Example C13_stale_instance : wf (mkT 2 3 [10; 20; 30]) /\ contents (mkT 2 3 [10; 20; 30]) = [10; 20] /\
  exists t', tuple_slice env0 (mkT 2 3 [10; 20; 30]) (PN_NUM 1) (PN_NUM 5) = Ok (Some t') /\ contents t' = [20; 30].
Proof. split; [unfold wf, zlen; cbn; lia|]. split; [reflexivity|]. eexists. split; vm_compute; reflexivity. Qed.
