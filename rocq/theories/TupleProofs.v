(** Proofs about the tuple model. *)
From Coq Require Import ZifyBool Permutation.
From Verif Require Import Base WordModel WordProofs Arr TupleModel.
Ltac Zify.zify_post_hook ::= Z.div_mod_to_equations.

(** Abstraction: the list a tuple stands for, and well-formed tuples. *)
Definition contents (t : tuple) : list Z := ztake (t_len t) (t_mem t).
Definition wf (t : tuple) : Prop :=
  0 <= t_len t <= t_alloc t /\ t_alloc t <= zlen (t_mem t) /\ t_alloc t < 2^28 - 8.

Lemma u32_small x : 0 <= x < 2^32 -> u32 x = x.
Proof. intros. unfold u32, two32. apply Z.mod_small. lia. Qed.
Lemma u64_small x : 0 <= x < 2^64 -> u64 x = x.
Proof. intros. unfold u64, two64. apply Z.mod_small. lia. Qed.
Lemma words_ok_true n : 0 <= n < 2^28 - 4 -> words_ok n = true.
Proof. unfold words_ok. intros. lia. Qed.

Lemma zlen_contents t : wf t -> zlen (contents t) = t_len t.
Proof. intros [H1 [H2 H3]]. unfold contents. apply zlen_ztake. lia. Qed.
Lemma znth_contents t i : 0 <= i < t_len t -> znth (contents t) i = znth (t_mem t) i.
Proof. intros H. unfold contents. apply znth_ztake. lia. Qed.

Lemma alloc_words_ok e n : 0 <= n < 2^28 - 4 -> exists m, alloc_words e n = Ok m /\ zlen m = n.
Proof.
  intros H. unfold alloc_words. rewrite words_ok_true by lia. eexists. split; [reflexivity|].
  rewrite zlen_map. unfold zlen. rewrite seq_length. lia.
Qed.

Lemma realloc_ok e t n : wf t -> t_alloc t < n -> n < 2^28 - 4 ->
  exists m, realloc_words e t n = Ok m /\ zlen m = n /\
    (forall i, 0 <= i < t_alloc t -> znth m i = znth (t_mem t) i).
Proof.
  intros [H1 [H2 H3]] Hn Hb. unfold realloc_words.
  destruct (t_alloc t >=? n) eqn:E; [lia|].
  destruct (alloc_words_ok e n ltac:(lia)) as [m [Em Lm]]. rewrite Em. cbn [bind].
  destruct (zlen (t_mem t) <? t_alloc t) eqn:E2; [lia|].
  eexists. split; [reflexivity|]. split.
  - rewrite zlen_app, zlen_ztake, zlen_zdrop by lia. lia.
  - intros i Hi. rewrite znth_app1 by (rewrite zlen_ztake; lia). apply znth_ztake. lia.
Qed.
Lemma realloc_same e t n : n <= t_alloc t -> realloc_words e t n = Ok (t_mem t).
Proof. intros H. unfold realloc_words. destruct (t_alloc t >=? n) eqn:E; [reflexivity|lia]. Qed.

(** runs of reads and writes *)
Lemma rd_run_ok e m i n : 0 <= i -> i + Z.of_nat n <= zlen m ->
  rd_run e m i n = Ok (zsub m i (Z.of_nat n)).
Proof.
  revert i. induction n as [|n IH]; intros i Hi Hn.
  - cbn. unfold zsub. reflexivity.
  - cbn [rd_run]. unfold rd_after.
    destruct (i =? zlen m) eqn:E; [lia|]. rewrite rd_ok by lia. cbn [bind].
    rewrite IH by lia. cbn [bind]. f_equal. apply znth_ext.
    + rewrite zlen_cons, !zlen_zsub by lia. lia.
    + intros k Hk. rewrite zlen_cons, zlen_zsub in Hk by lia. destruct (Z.eq_dec k 0) as [->|N].
      * rewrite znth_cons0, znth_zsub by lia. f_equal; lia.
      * rewrite znth_consS by lia. rewrite !znth_zsub by lia. f_equal; lia.
Qed.
Lemma rd_run_after e g m i n : e_after e = Some g -> 0 <= i -> i + Z.of_nat n <= zlen m + 1 ->
  rd_run e m i n = Ok (zsub (m ++ [g]) i (Z.of_nat n)).
Proof.
  intros Hg. revert i. induction n as [|n IH]; intros i Hi Hn.
  - cbn. unfold zsub. reflexivity.
  - cbn [rd_run]. unfold rd_after.
    assert (L : zlen (m ++ [g]) = zlen m + 1) by (rewrite zlen_app, zlen_cons, zlen_nil; lia).
    assert (X : (if i =? zlen m then match e_after e with Some g0 => Ok g0 | None => UB end else rd m i)
                = Ok (znth (m ++ [g]) i)).
    { destruct (Z.eqb_spec i (zlen m)) as [->|N].
      - rewrite Hg. rewrite znth_app2 by lia. rewrite Z.sub_diag. reflexivity.
      - rewrite rd_ok by lia. rewrite znth_app1 by lia. reflexivity. }
    rewrite X. cbn [bind]. rewrite IH by lia. cbn [bind]. f_equal. apply znth_ext.
    + rewrite zlen_cons, !zlen_zsub by lia. lia.
    + intros k Hk. rewrite zlen_cons, zlen_zsub in Hk by lia. destruct (Z.eq_dec k 0) as [->|N'].
      * rewrite znth_cons0, znth_zsub by lia. f_equal; lia.
      * rewrite znth_consS by lia. rewrite !znth_zsub by lia. f_equal; lia.
Qed.
Lemma wr_run_ok m i ws : 0 <= i -> i + zlen ws <= zlen m ->
  exists m', wr_run m i ws = Ok m' /\ zlen m' = zlen m /\
    (forall k, 0 <= k -> znth m' k = if (i <=? k) && (k <? i + zlen ws) then znth ws (k - i) else znth m k).
Proof.
  revert m i. induction ws as [|w ws IH]; intros m i Hi Hn.
  - exists m. cbn [wr_run]. repeat split. intros k Hk. rewrite zlen_nil.
    destruct ((i <=? k) && (k <? i + 0)) eqn:E; [lia|reflexivity].
  - rewrite zlen_cons in *. pose proof (zlen_nonneg ws). cbn [wr_run]. rewrite wr_ok by lia. cbn [bind].
    destruct (IH (upd m i w) (i + 1)) as [m' [E [L F]]]; [lia|rewrite zlen_upd; lia|].
    exists m'. rewrite E. split; [reflexivity|]. rewrite zlen_upd in L by lia. split; [exact L|].
    intros k Hk. rewrite F by assumption.
    destruct (Z.eq_dec k i) as [->|N].
    + destruct ((i + 1 <=? i) && (i <? i + 1 + zlen ws)) eqn:E1; [lia|].
      destruct ((i <=? i) && (i <? i + (1 + zlen ws))) eqn:E2; [|lia].
      rewrite znth_upd_same by lia. rewrite Z.sub_diag. reflexivity.
    + destruct ((i + 1 <=? k) && (k <? i + 1 + zlen ws)) eqn:E1;
      destruct ((i <=? k) && (k <? i + (1 + zlen ws))) eqn:E2; try lia.
      * rewrite znth_consS by lia. f_equal; lia.
      * rewrite znth_upd_other by lia. reflexivity.
Qed.
Lemma memmove_ok e m dst src n : 0 <= dst -> 0 <= src -> 0 <= n ->
  dst + n <= zlen m -> src + n <= zlen m ->
  exists m', memmove e m dst src n = Ok m' /\ zlen m' = zlen m /\
    (forall k, 0 <= k -> znth m' k =
       if (dst <=? k) && (k <? dst + n) then znth m (src + (k - dst)) else znth m k).
Proof.
  intros. unfold memmove. destruct (n <? 0) eqn:E; [lia|].
  rewrite rd_run_ok by lia. cbn [bind]. rewrite Z2Nat.id by lia.
  assert (L : zlen (zsub m src n) = n) by (apply zlen_zsub; lia).
  destruct (wr_run_ok m dst (zsub m src n)) as [m' [E1 [L1 F]]]; [lia|lia|].
  exists m'. split; [exact E1|]. split; [exact L1|]. intros k Hk. rewrite F by lia. rewrite L.
  destruct ((dst <=? k) && (k <? dst + n)) eqn:E2; [|reflexivity]. apply znth_zsub; lia.
Qed.
Lemma memmove_after e g m dst src n : e_after e = Some g -> 0 <= dst -> 0 <= src -> 0 <= n ->
  dst + n <= zlen m -> src + n <= zlen m + 1 ->
  exists m', memmove e m dst src n = Ok m' /\ zlen m' = zlen m /\
    (forall k, 0 <= k -> znth m' k =
       if (dst <=? k) && (k <? dst + n) then znth (m ++ [g]) (src + (k - dst)) else znth m k).
Proof.
  intros Hg **. unfold memmove. destruct (n <? 0) eqn:E; [lia|].
  rewrite (rd_run_after _ _ _ _ _ Hg) by lia. cbn [bind]. rewrite Z2Nat.id by lia.
  assert (L : zlen (zsub (m ++ [g]) src n) = n)
    by (apply zlen_zsub; try lia; rewrite zlen_app, zlen_cons, zlen_nil; lia).
  destruct (wr_run_ok m dst (zsub (m ++ [g]) src n)) as [m' [E1 [L1 F]]]; [lia|lia|].
  exists m'. split; [exact E1|]. split; [exact L1|]. intros k Hk. rewrite F by lia. rewrite L.
  destruct ((dst <=? k) && (k <? dst + n)) eqn:E2; [|reflexivity]. apply znth_zsub; lia.
Qed.
Lemma memcpy_ok e dst src i n : 0 <= i -> 0 <= n -> i + n <= zlen src -> zlen dst = n ->
  memcpy e dst src i n = Ok (zsub src i n).
Proof.
  intros. unfold memcpy. destruct (n <? 0) eqn:E; [lia|].
  rewrite rd_run_ok by lia. cbn [bind]. rewrite Z2Nat.id by lia.
  assert (L : zlen (zsub src i n) = n) by (apply zlen_zsub; lia).
  destruct (wr_run_ok dst 0 (zsub src i n)) as [m' [E1 [L1 F]]]; [lia|lia|].
  rewrite E1. f_equal. apply znth_ext; [lia|]. intros k Hk. rewrite F by lia.
  destruct ((0 <=? k) && (k <? 0 + zlen (zsub src i n))) eqn:E2; [|lia]. f_equal; lia.
Qed.

(** ** One lemma per operation: effect on the abstraction *)
Lemma tuple_empty_ok e : exists t, tuple_empty e = Ok t /\ wf t /\ t_alloc t = 3 /\ contents t = [].
Proof.
  unfold tuple_empty, NEW_TUPLE. destruct (alloc_words_ok e 3) as [m [E L]]; [lia|].
  rewrite E. cbn [bind]. eexists. split; [reflexivity|]. unfold wf, contents. cbn. repeat split; lia.
Qed.
Lemma tuple_with_size_ok e n : 0 <= n < 2^28 - 8 ->
  exists t, tuple_with_size e n = Ok t /\ wf t /\ t_len t = n /\ t_alloc t = n.
Proof.
  intros H. unfold tuple_with_size, NEW_TUPLE. destruct (alloc_words_ok e n) as [m [E L]]; [lia|].
  rewrite E. cbn [bind]. eexists. split; [reflexivity|]. unfold wf. cbn [t_len t_alloc t_mem]. repeat split; lia.
Qed.
Lemma tuple_new_ok e v : exists t, tuple_new e v = Ok t /\ wf t /\ t_alloc t = 3 /\ contents t = [v].
Proof.
  unfold tuple_new, NEW_TUPLE. destruct (alloc_words_ok e 3) as [m [E L]]; [lia|].
  rewrite E. cbn [bind t_mem t_alloc]. rewrite wr_ok by lia. cbn [bind]. eexists. split; [reflexivity|].
  unfold wf, contents. cbn [t_len t_mem t_alloc]. rewrite zlen_upd by lia. repeat split; try lia.
Qed.

Lemma tuple_push_ok e t v : wf t -> 1 <= t_alloc t -> t_len t < 2^26 ->
  exists t', tuple_push e t v = Ok t' /\ wf t' /\ 1 <= t_alloc t' <= Z.max (t_alloc t) (2^27) /\ contents t' = contents t ++ [v].
Proof.
  intros W Ha Hl. pose proof W as [H1 [H2 H3]]. unfold tuple_push.
  assert (X : exists t1, (if t_len t >=? t_alloc t
            then do m <- realloc_words e t (u32 (t_len t * 2));
                 Ok (mkT (t_len t) (u32 (t_len t * 2)) m)
            else Ok t) = Ok t1 /\ wf t1 /\ t_len t1 = t_len t /\ t_len t1 < t_alloc t1 <= Z.max (t_alloc t) (2^27) /\ contents t1 = contents t).
  { destruct (t_len t >=? t_alloc t) eqn:E.
    - rewrite u32_small by lia.
      destruct (realloc_ok e t (t_len t * 2)) as [m [Em [Lm F]]]; [assumption|lia|lia|].
      rewrite Em. cbn [bind]. eexists. split; [reflexivity|]. unfold wf; cbn [t_len t_alloc t_mem].
      repeat split; try lia. unfold contents. cbn [t_len t_mem]. apply znth_ext.
      + rewrite !zlen_ztake; lia.
      + intros i Hi. rewrite zlen_ztake in Hi by lia. rewrite !znth_ztake by lia. apply F. lia.
    - exists t. repeat split; try assumption; lia. }
  destruct X as [t1 [E [W1 [L1 [L2 C]]]]]. rewrite E. cbn [bind].
  destruct W1 as [A1 [A2 A3]]. rewrite wr_ok by lia. cbn [bind]. rewrite u32_small by lia.
  eexists. split; [reflexivity|]. unfold wf; cbn [t_len t_alloc t_mem]. rewrite zlen_upd by lia.
  repeat split; try lia. rewrite <- C. unfold contents. cbn [t_len t_mem]. apply znth_ext.
  - rewrite zlen_app, zlen_cons, zlen_nil, !zlen_ztake; rewrite ?zlen_upd; lia.
  - intros i Hi. rewrite zlen_ztake in Hi by (rewrite zlen_upd; lia).
    rewrite znth_ztake by lia. rewrite znth_upd by lia.
    destruct (Z.eqb_spec (t_len t1) i) as [<-|N].
    + rewrite znth_app2 by (rewrite zlen_ztake; lia). rewrite zlen_ztake by lia. rewrite Z.sub_diag. reflexivity.
    + rewrite znth_app1 by (rewrite zlen_ztake; lia). rewrite znth_ztake by lia. reflexivity.
Qed.

Lemma tuple_pop_ok e t l v : wf t -> contents t = l ++ [v] ->
  exists t', tuple_pop e t = Ok (t', v) /\ wf t' /\ t_alloc t' = t_alloc t /\ contents t' = l.
Proof.
  intros W C. pose proof (zlen_contents t W) as L. rewrite C, zlen_app, zlen_cons, zlen_nil in L.
  pose proof (zlen_nonneg l). pose proof W as [H1 [H2 H3]].
  unfold tuple_pop. rewrite u32_small by lia. rewrite rd_ok by lia. cbn [bind].
  rewrite realloc_same by lia. cbn [bind]. eexists. split.
  - do 3 f_equal. rewrite <- znth_contents by lia. rewrite C. rewrite znth_app2 by lia.
    replace (t_len t - 1 - zlen l) with 0 by lia. reflexivity.
  - unfold wf. cbn [t_len t_alloc t_mem]. repeat split; try lia.
    unfold contents. cbn [t_len t_mem]. apply znth_ext; [rewrite zlen_ztake; lia|].
    intros i Hi. rewrite zlen_ztake in Hi by lia. rewrite znth_ztake by lia.
    rewrite <- znth_contents by lia. rewrite C. apply znth_app1. lia.
Qed.

Lemma tuple_unshift_ok e t v : wf t -> t_len t < 2^26 -> t_alloc t < 2^28 - 16 ->
  exists t', tuple_unshift e t v = Ok t' /\ wf t' /\ 1 <= t_alloc t' <= Z.max (t_alloc t) (2^27) /\ contents t' = v :: contents t.
Proof.
  intros W Hl Ha. pose proof W as [H1 [H2 H3]]. unfold tuple_unshift.
  assert (X : exists t1, (if t_len t >=? t_alloc t
            then do m <- realloc_words e t (u32 (t_alloc t + 3));
                 Ok (mkT (t_len t) (u32 (t_alloc t + 3)) m)
            else Ok t) = Ok t1 /\ wf t1 /\ t_len t1 = t_len t /\ t_len t1 < t_alloc t1 <= Z.max (t_alloc t) (2^27) /\ contents t1 = contents t).
  { destruct (t_len t >=? t_alloc t) eqn:E.
    - rewrite u32_small by lia.
      destruct (realloc_ok e t (t_alloc t + 3)) as [m [Em [Lm F]]]; [assumption|lia|lia|].
      rewrite Em. cbn [bind]. eexists. split; [reflexivity|]. unfold wf; cbn [t_len t_alloc t_mem].
      repeat split; try lia. unfold contents. cbn [t_len t_mem]. apply znth_ext.
      + rewrite !zlen_ztake; lia.
      + intros i Hi. rewrite zlen_ztake in Hi by lia. rewrite !znth_ztake by lia. apply F. lia.
    - exists t. repeat split; try assumption; lia. }
  destruct X as [t1 [E [W1 [L1 [L2 C]]]]]. rewrite E. cbn [bind].
  destruct W1 as [A1 [A2 A3]].
  destruct (memmove_ok e (t_mem t1) 1 0 (t_len t1)) as [m [Em [Lm F]]]; try lia.
  rewrite Em. cbn [bind]. rewrite wr_ok by lia. cbn [bind]. rewrite u32_small by lia.
  eexists. split; [reflexivity|]. unfold wf; cbn [t_len t_alloc t_mem]. rewrite zlen_upd by lia.
  repeat split; try lia. rewrite <- C. unfold contents. cbn [t_len t_mem]. apply znth_ext.
  - rewrite zlen_cons, !zlen_ztake; rewrite ?zlen_upd; lia.
  - intros i Hi. rewrite zlen_ztake in Hi by (rewrite zlen_upd; lia).
    rewrite znth_ztake by lia. rewrite znth_upd by lia.
    destruct (Z.eqb_spec 0 i) as [<-|N]; [reflexivity|].
    rewrite znth_consS by lia. rewrite F by lia. rewrite znth_ztake by lia.
    destruct ((1 <=? i) && (i <? 1 + t_len t1)) eqn:E2; [|lia]. f_equal; lia.
Qed.

Lemma tuple_shift_ok e g t l v : e_after e = Some g -> wf t -> contents t = v :: l ->
  exists t', tuple_shift e t = Ok (t', v) /\ wf t' /\ t_alloc t' = t_alloc t /\ contents t' = l.
Proof.
  intros Hg W C. pose proof (zlen_contents t W) as L. rewrite C, zlen_cons in L.
  pose proof (zlen_nonneg l). pose proof W as [H1 [H2 H3]].
  unfold tuple_shift. rewrite rd_ok by lia. cbn [bind].
  destruct (memmove_after e g (t_mem t) 0 1 (t_len t)) as [m [Em [Lm F]]]; try lia; try assumption.
  rewrite Em. cbn [bind]. rewrite u32_small by lia. rewrite realloc_same by (cbn [t_alloc]; lia). cbn [bind t_mem].
  eexists. split.
  - do 3 f_equal. rewrite <- znth_contents by lia. rewrite C. reflexivity.
  - unfold wf. cbn [t_len t_alloc t_mem]. repeat split; try lia.
    unfold contents. cbn [t_len t_mem]. apply znth_ext; [rewrite zlen_ztake; lia|].
    intros i Hi. rewrite zlen_ztake in Hi by lia. rewrite znth_ztake by lia. rewrite F by lia.
    destruct ((0 <=? i) && (i <? 0 + t_len t)) eqn:E2; [|lia].
    rewrite znth_app1 by lia. rewrite <- znth_contents by lia. rewrite C. rewrite znth_consS by lia. f_equal; lia.
Qed.

(** normalised index *)
Definition norm (len i : Z) : Z := if i <? 0 then i + len else i.

Lemma tuple_put_ok e t i v : wf t -> 1 <= t_alloc t -> t_len t < 2^26 -> repb i = true ->
  0 <= norm (t_len t) i < t_len t ->
  exists t', tuple_put e t (PN_NUM i) v = Ok (inl t') /\ wf t' /\ t_alloc t' = t_alloc t /\
             contents t' = upd (contents t) (norm (t_len t) i) v.
Proof.
  intros W Ha Hl Hr Hi. pose proof W as [H1 [H2 H3]]. unfold tuple_put.
  rewrite PN_NUM_is_int. rewrite PN_INT_NUM by assumption. fold (norm (t_len t) i).
  destruct (norm (t_len t) i <? t_len t) eqn:E; [|lia]. rewrite wr_ok by lia. cbn [bind].
  eexists. split; [reflexivity|]. unfold wf. cbn [t_len t_alloc t_mem]. rewrite zlen_upd by lia.
  repeat split; try lia. unfold contents. cbn [t_len t_mem]. apply znth_ext.
  - rewrite zlen_upd; rewrite ?zlen_ztake; rewrite ?zlen_upd; lia.
  - intros k Hk. rewrite zlen_ztake in Hk by (rewrite zlen_upd; lia). rewrite znth_ztake by lia.
    rewrite !znth_upd by (rewrite ?zlen_ztake; lia). rewrite znth_ztake by lia. reflexivity.
Qed.
Lemma tuple_put_push e t i v : wf t -> 1 <= t_alloc t -> t_len t < 2^26 -> i = t_len t ->
  exists t', tuple_put e t (PN_NUM i) v = Ok (inl t') /\ wf t' /\ 1 <= t_alloc t' <= Z.max (t_alloc t) (2^27) /\
             contents t' = contents t ++ [v].
Proof.
  intros W Ha Hl ->. pose proof W as [H1 [H2 H3]].
  destruct (tuple_push_ok e t v W Ha Hl) as [t' [E [W' [A C]]]].
  exists t'. split; [|auto]. unfold tuple_put. rewrite PN_NUM_is_int.
  rewrite PN_INT_NUM by (unfold repb, two62; lia).
  destruct (t_len t <? 0) eqn:E1; [lia|]. rewrite Z.ltb_irrefl, Z.eqb_refl, E. reflexivity.
Qed.
Lemma tuple_gc_ok t : wf t -> exists t', tuple_gc t = Ok t' /\ wf t' /\ t_alloc t' = t_alloc t /\ contents t' = contents t.
Proof.
  intros W. pose proof W as [H1 [H2 H3]]. unfold tuple_gc.
  destruct (zlen (t_mem t) <? t_alloc t) eqn:E; [lia|]. eexists. split; [reflexivity|].
  unfold wf. cbn [t_len t_alloc t_mem]. rewrite zlen_ztake by lia. repeat split; try lia.
  unfold contents. cbn [t_len t_mem]. apply znth_ext; [rewrite !zlen_ztake; rewrite ?zlen_ztake; lia|].
  intros i Hi. rewrite zlen_ztake in Hi by (rewrite zlen_ztake; lia). rewrite !znth_ztake by lia. reflexivity.
Qed.

Lemma tuple_at_ok t i : wf t -> repb i = true ->
  - t_len t <= i -> tuple_at t (PN_NUM i) =
    Ok (if i <? t_len t then znth (contents t) (norm (t_len t) i) else PN_NIL).
Proof.
  intros W Hr Hi. pose proof W as [H1 [H2 H3]]. unfold tuple_at. rewrite PN_INT_NUM by assumption.
  fold (norm (t_len t) i). unfold norm in *.
  destruct (i <? t_len t) eqn:E1; destruct (i <? 0) eqn:E2; try lia.
  - destruct (i + t_len t >=? t_len t) eqn:E3; [lia|]. rewrite rd_ok by lia. rewrite znth_contents by lia. reflexivity.
  - destruct (i >=? t_len t) eqn:E3; [lia|]. rewrite rd_ok by lia. rewrite znth_contents by lia. reflexivity.
  - destruct (i >=? t_len t) eqn:E3; [|lia]. reflexivity.
Qed.

Lemma tuple_clone_ok e t : wf t -> exists t', tuple_clone e t = Ok t' /\ wf t' /\
  t_len t' = t_len t /\ t_alloc t' = t_len t /\ zlen (t_mem t') = t_len t /\ contents t' = contents t.
Proof.
  intros W. pose proof W as [H1 [H2 H3]]. unfold tuple_clone, NEW_TUPLE.
  destruct (alloc_words_ok e (t_len t)) as [m [E L]]; [lia|]. rewrite E. cbn [bind t_mem t_len].
  rewrite memcpy_ok by lia. cbn [bind]. eexists. split; [reflexivity|].
  unfold wf. cbn [t_len t_alloc t_mem]. rewrite zlen_zsub by lia. repeat split; try lia.
  unfold contents. cbn [t_len t_mem]. apply znth_ext; [rewrite !zlen_ztake; rewrite ?zlen_zsub; lia|].
  intros i Hi. rewrite zlen_ztake in Hi by (rewrite zlen_zsub; lia). rewrite !znth_ztake by lia.
  rewrite znth_zsub by lia. f_equal.
Qed.

(** ** deletion *)
Definition del (l : list Z) (i : Z) : list Z := ztake i l ++ zdrop (i + 1) l.
Lemma delete_core e g t i : e_after e = Some g -> wf t -> 0 <= i < t_len t ->
  exists m, memmove e (t_mem t) i (i + 1) (t_len t - i) = Ok m /\ zlen m = zlen (t_mem t) /\
    contents (mkT (t_len t - 1) (t_alloc t) m) = del (contents t) i.
Proof.
  intros Hg W Hi. pose proof W as [H1 [H2 H3]].
  destruct (memmove_after e g (t_mem t) i (i + 1) (t_len t - i)) as [m [Em [Lm F]]]; try lia; try assumption.
  exists m. split; [exact Em|]. split; [exact Lm|]. unfold contents, del. cbn [t_len t_mem].
  assert (L : zlen (ztake (t_len t) (t_mem t)) = t_len t) by (rewrite zlen_ztake; lia).
  apply znth_ext; [rewrite zlen_app, zlen_zdrop, !zlen_ztake by lia; lia|].
  intros k Hk. rewrite zlen_ztake in Hk by lia. rewrite znth_ztake by lia. rewrite F by lia.
  destruct ((i <=? k) && (k <? i + (t_len t - i))) eqn:E.
  - rewrite znth_app1 by lia. rewrite znth_app2 by (rewrite zlen_ztake; lia). rewrite zlen_ztake by lia.
    rewrite znth_zdrop by lia. rewrite znth_ztake by lia. f_equal; lia.
  - rewrite znth_app1 by (rewrite zlen_ztake; lia). rewrite !znth_ztake by lia. reflexivity.
Qed.
Lemma tuple_delete_ok e g t i : e_after e = Some g -> wf t -> 0 <= i < t_len t ->
  exists t', tuple_delete e t (PN_NUM i) = Ok t' /\ wf t' /\ t_alloc t' = t_alloc t /\ contents t' = del (contents t) i.
Proof.
  intros Hg W Hi. pose proof W as [H1 [H2 H3]]. unfold tuple_delete.
  destruct (t_len t =? 0) eqn:E; [lia|]. rewrite PN_INT_NUM by (unfold repb, two62; lia).
  rewrite u32_small by lia. destruct (i <? t_len t) eqn:E2; [|lia].
  destruct (delete_core e g t i Hg W Hi) as [m [Em [Lm C]]]. rewrite Em. cbn [bind].
  eexists. split; [reflexivity|]. split; [|split; [reflexivity|exact C]].
  unfold wf. cbn [t_len t_alloc t_mem]. lia.
Qed.
Lemma tuple_remove_ok e g t i : e_after e = Some g -> wf t -> 0 <= i < t_len t ->
  exists t', tuple_remove e t (PN_NUM i) = Ok t' /\ wf t' /\ contents t' = del (contents t) i.
Proof.
  intros Hg W Hi. pose proof W as [H1 [H2 H3]]. unfold tuple_remove.
  destruct (t_len t =? 0) eqn:E; [lia|]. rewrite PN_INT_NUM by (unfold repb, two62; lia).
  rewrite u32_small by lia.
  destruct (tuple_clone_ok e t W) as [c [Ec [Wc [Lc [Ac [Mc Cc]]]]]]. rewrite Ec. cbn [bind].
  destruct (i <? t_len c) eqn:E2; [|lia].
  destruct (delete_core e g c i Hg Wc ltac:(lia)) as [m [Em [Lm C]]]. rewrite Em. cbn [bind].
  eexists. split; [reflexivity|]. split; [|rewrite <- Cc; exact C].
  unfold wf. cbn [t_len t_alloc t_mem]. lia.
Qed.

(** ** iteration *)
Lemma each_from_ok {S R} (body : Z -> Z -> S -> res (S + R)) m i n s : 0 <= i -> i + Z.of_nat n <= zlen m ->
  tuple_each_from m i n body s =
  (fix go (k : Z) (l : list Z) (s : S) : res (S + R) :=
     match l with
     | [] => Ok (inl s)
     | v :: l' => do x <- body k v s; match x with inr r => Ok (inr r) | inl s' => go (k + 1) l' s' end
     end) i (zsub m i (Z.of_nat n)) s.
Proof.
  revert i s. induction n as [|n IH]; intros i s Hi Hn.
  - reflexivity.
  - assert (Z1 : zsub m i (Z.of_nat (Datatypes.S n)) = znth m i :: zsub m (i + 1) (Z.of_nat n)).
    { apply znth_ext; [rewrite zlen_cons, !zlen_zsub by lia; lia|].
      intros k Hk. rewrite zlen_zsub in Hk by lia. destruct (Z.eq_dec k 0) as [->|N].
      - rewrite znth_cons0, znth_zsub by lia. f_equal; lia.
      - rewrite znth_consS by lia. rewrite !znth_zsub by lia. f_equal; lia. }
    rewrite Z1. cbn [tuple_each_from]. rewrite rd_ok by lia. cbn [bind].
    destruct (body i (znth m i) s) as [[s'|r]| |]; cbn [bind]; try reflexivity. apply IH; lia.
Qed.

(** walking a mathematical list with indices *)
Fixpoint walk {S R} (body : Z -> Z -> S -> res (S + R)) (k : Z) (l : list Z) (s : S) : res (S + R) :=
  match l with
  | [] => Ok (inl s)
  | v :: l' => do x <- body k v s; match x with inr r => Ok (inr r) | inl s' => walk body (k + 1) l' s' end
  end.
Lemma TUPLE_EACH_ok {S R} (body : Z -> Z -> S -> res (S + R)) t s : wf t ->
  TUPLE_EACH t body s = walk body 0 (contents t) s.
Proof.
  intros [H1 [H2 H3]]. unfold TUPLE_EACH. rewrite each_from_ok by lia. rewrite Z2Nat.id by lia.
  replace (zsub (t_mem t) 0 (t_len t)) with (contents t) by reflexivity.
  generalize (contents t) as l, 0 as k. intros l. revert s. induction l as [|v l IH]; intros s k; [reflexivity|].
  cbn [walk]. destruct (body k v s) as [[s'|r]| |]; cbn [bind]; try reflexivity. apply IH.
Qed.
