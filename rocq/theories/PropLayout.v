(** Property C24: the flat storage of a hash table. *)
From Coq Require Import ZifyBool.
From Verif Require Import Base Arr GArr KhashModel LayoutModel.
Ltac Zify.zify_post_hook ::= Z.div_mod_to_equations.

(** byte ranges *)
Definition range := (Z * Z)%type.   (* first byte, number of bytes *)
Definition inside (r : range) (n : Z) : Prop := 0 <= fst r /\ fst r + snd r <= n.
Definition apart (a b : range) : Prop := fst a + snd a <= fst b \/ fst b + snd b <= fst a.
Definition flag_range m i : range := (kh_flag m i, 4).
Definition key_range m i : range := (kh_key_at m i, 8).
Definition val_range m i : range := (kh_val_at m i, 8).

Lemma shr4 i : Z.shiftr i 4 = i / 16. Proof. rewrite Z.shiftr_div_pow2 by lia. reflexivity. Qed.
Lemma layout_eqs m i : 0 <= i <= 67108864 ->
  kh_flag m i = (i / 16) * (4 + 16 * kh_pair m) /\
  kh_key_at m i = (i / 16 + 1) * 4 + i * kh_pair m /\
  kh_val_at m i = (i / 16 + 1) * 4 + i * kh_pair m + 8 /\
  kh_size m i = (i / 16 + 1) * 4 + i * kh_pair m.
Proof.
  intros H. unfold kh_flag, kh_val_at, kh_key_at, kh_size, u32, two32. rewrite !shr4.
  assert (kh_pair m = 8 \/ kh_pair m = 16) by (destruct m; cbn; auto). lia.
Qed.

(** Everything lies inside the allocation of n buckets, and nothing overlaps
    except the flag word that 16 consecutive buckets share. *)
Theorem C24_storage_is_disjoint_and_inside :
  forall m n i j, 0 <= n <= 67108864 -> 0 <= i < n -> 0 <= j < n ->
  inside (flag_range m i) (kh_size m n) /\
  inside (key_range m i) (kh_size m n) /\
  (m = true -> inside (val_range m i) (kh_size m n)) /\
  apart (flag_range m i) (key_range m j) /\
  (m = true -> apart (flag_range m i) (val_range m j)) /\
  (m = true -> apart (key_range m i) (val_range m j)) /\
  (i <> j -> apart (key_range m i) (key_range m j)) /\
  (i <> j -> m = true -> apart (val_range m i) (val_range m j)) /\
  (kh_flag m i = kh_flag m j <-> i / 16 = j / 16) /\
  (i / 16 <> j / 16 -> apart (flag_range m i) (flag_range m j)).
Proof.
  intros m n i j Hn Hi Hj.
  destruct (layout_eqs m n ltac:(lia)) as (_ & _ & _ & Sn).
  destruct (layout_eqs m i ltac:(lia)) as (Fi & Ki & Vi & _).
  destruct (layout_eqs m j ltac:(lia)) as (Fj & Kj & Vj & _).
  unfold inside, apart, flag_range, key_range, val_range. cbn [fst snd].
  rewrite Sn, Fi, Fj, Ki, Kj, Vi, Vj.
  assert (C : kh_pair m = 8 /\ m = false \/ kh_pair m = 16 /\ m = true) by (destruct m; cbn; auto).
  destruct C as [[-> ->]|[-> ->]]; repeat split; intros; try discriminate; lia.
Qed.
(** growing keeps every old bucket where it was: the offsets do not depend on
    the number of buckets, and a bigger table has a bigger allocation *)
Theorem C24_growing_keeps_offsets :
  forall m n n', 0 <= n <= n' -> n' <= 67108864 -> kh_size m n <= kh_size m n'.
Proof.
  intros m n n' H H'. destruct (layout_eqs m n ltac:(lia)) as (_ & _ & _ & Sn).
  destruct (layout_eqs m n' ltac:(lia)) as (_ & _ & _ & Sn'). rewrite Sn, Sn'.
  assert (kh_pair m = 8 \/ kh_pair m = 16) by (destruct m; cbn; auto). nia.
Qed.
Example C24_layout_example : kh_size true 32 = 524 /\ kh_flag true 17 = 260 /\ kh_key_at true 17 = 280 /\ kh_val_at true 31 = 512.
Proof. repeat split. Qed.

(** ** the packed flag bits *)
Lemma fshift_eq i : 0 <= i -> fshift i = 2 * (i mod 16).
Proof.
  intros H. unfold fshift. change 15 with (Z.ones 4). rewrite Z.land_ones by lia.
  rewrite Z.shiftl_mul_pow2 by lia. change (2 ^ 1) with 2. change (2 ^ 4) with 16. lia.
Qed.
Lemma land_pow2_testbit w k : 0 <= k -> negb (Z.land w (2 ^ k) =? 0) = Z.testbit w k.
Proof.
  intros H. destruct (Z.testbit w k) eqn:E.
  - destruct (Z.eqb_spec (Z.land w (2 ^ k)) 0) as [Q|Q]; [|reflexivity].
    assert (X : Z.testbit (Z.land w (2 ^ k)) k = true) by (rewrite Z.land_spec, Z.pow2_bits_true, E by lia; reflexivity).
    rewrite Q, Z.bits_0 in X. discriminate.
  - destruct (Z.eqb_spec (Z.land w (2 ^ k)) 0) as [Q|Q]; [reflexivity|]. exfalso. apply Q. apply Z.bits_inj'.
    intros n Hn. rewrite Z.land_spec, Z.bits_0. destruct (Z.eq_dec n k) as [->|N]; [rewrite E; reflexivity|].
    rewrite Z.pow2_bits_false by lia. apply andb_false_r.
Qed.
Lemma isempty_bit w i : 0 <= i -> w_isempty w i = Z.testbit w (2 * (i mod 16) + 1).
Proof.
  intros H. unfold w_isempty. change 2 with (2 ^ 1). rewrite land_pow2_testbit, Z.shiftr_spec, fshift_eq by lia.
  f_equal. lia.
Qed.
Lemma isdel_bit w i : 0 <= i -> w_isdel w i = Z.testbit w (2 * (i mod 16)).
Proof.
  intros H. unfold w_isdel. change 1 with (2 ^ 0) at 1. rewrite land_pow2_testbit, Z.shiftr_spec, fshift_eq by lia.
  f_equal; lia.
Qed.
Lemma u64_bit x n : 0 <= n < 64 -> Z.testbit (u64 x) n = Z.testbit x n.
Proof. intros H. unfold u64. change two64 with (2 ^ 64). apply Z.mod_pow2_bits_low. lia. Qed.
Lemma u32_bit x n : 0 <= n < 32 -> Z.testbit (u32 x) n = Z.testbit x n.
Proof. intros H. unfold u32. change two32 with (2 ^ 32). apply Z.mod_pow2_bits_low. lia. Qed.
Lemma bit1 n : 0 <= n -> Z.testbit 1 n = (n =? 0).
Proof. intros H. change 1 with (2 ^ 0) at 1. rewrite Z.pow2_bits_eqb by lia. apply Z.eqb_sym. Qed.
Lemma bit2 n : 0 <= n -> Z.testbit 2 n = (n =? 1).
Proof. intros H. change 2 with (2 ^ 1). rewrite Z.pow2_bits_eqb by lia. apply Z.eqb_sym. Qed.
Lemma bit3 n : 0 <= n -> Z.testbit 3 n = (n =? 0) || (n =? 1).
Proof. intros H. change 3 with (Z.lor 1 2). rewrite Z.lor_spec, bit1, bit2 by lia. reflexivity. Qed.

Lemma clear_bits_spec w c i n : 0 <= i -> 0 <= n < 32 -> 
  Z.testbit (u32 (Z.land w (u64 (Z.lnot (u64 (Z.shiftl c (fshift i))))))) n
  = Z.testbit w n && negb ((2 * (i mod 16) <=? n) && Z.testbit c (n - 2 * (i mod 16))).
Proof.
  intros H Hn. rewrite u32_bit, Z.land_spec, u64_bit, Z.lnot_spec, u64_bit, fshift_eq by lia.
  destruct (Z.leb_spec (2 * (i mod 16)) n) as [L|L].
  - rewrite Z.shiftl_spec by lia. reflexivity.
  - rewrite Z.shiftl_spec_low by lia. reflexivity.
Qed.

(** The bit operations act on exactly one bucket's two flags: the packed flags
    behave as the array of pairs the table model uses. *)
Theorem C24_flag_bits_are_independent :
  forall ws i j, 0 <= i -> 0 <= j ->
  flag_of (upd_word ws i w_set_isdel_true) j = (if i =? j then (isempty (flag_of ws i), true) else flag_of ws j) /\
  flag_of (upd_word ws i w_set_isboth_false) j = (if i =? j then (false, false) else flag_of ws j) /\
  flag_of (upd_word ws i w_set_isempty_false) j = (if i =? j then (false, isdel (flag_of ws i)) else flag_of ws j) /\
  flag_of (upd_word ws i w_set_isdel_false) j = (if i =? j then (isempty (flag_of ws i), false) else flag_of ws j).
Proof.
  intros ws i j Hi Hj. unfold flag_of, upd_word, isempty, isdel. cbn [fst snd]. rewrite !shr4.
  destruct (Z.eqb_spec (j / 16) (i / 16)) as [G|G].
  2:{ destruct (Z.eqb_spec i j) as [->|N]; [congruence|]. repeat split. }
  rewrite G. rewrite !isempty_bit, !isdel_bit by lia.
  pose proof (Z.mod_pos_bound i 16 ltac:(lia)) as Bi. pose proof (Z.mod_pos_bound j 16 ltac:(lia)) as Bj.
  assert (EQ : (i =? j) = (i mod 16 =? j mod 16)) by lia.
  rewrite EQ. clear EQ G. set (a := i mod 16) in *. set (b := j mod 16) in *. set (w := ws (i / 16)). clearbody w.
  unfold w_set_isdel_false, w_set_isempty_false, w_set_isboth_false.
  rewrite !clear_bits_spec by lia. fold a.
  assert (T : forall n, 0 <= n < 32 -> Z.testbit (w_set_isdel_true w i) n = Z.testbit w n || (n =? 2 * a)).
  { intros n Hn. unfold w_set_isdel_true. rewrite u32_bit, Z.lor_spec, u64_bit, fshift_eq by lia. fold a. f_equal.
    destruct (Z_lt_le_dec n (2 * a)) as [L|L].
    - rewrite Z.shiftl_spec_low by lia. lia.
    - rewrite Z.shiftl_spec, bit1 by lia. lia. }
  rewrite !T by lia.
  assert (CB : forall c n, (2 * a <=? n) && Z.testbit c (n - 2 * a) = if n <? 2 * a then false else Z.testbit c (n - 2 * a)).
  { intros c n. destruct (Z.ltb_spec n (2 * a)).
    - replace (2 * a <=? n) with false by lia. reflexivity.
    - replace (2 * a <=? n) with true by lia. reflexivity. }
  rewrite !CB. clear CB T.
  destruct (Z.eqb_spec a b) as [->|N].
  - destruct (Z.ltb_spec (2 * b + 1) (2 * b)); [lia|]. destruct (Z.ltb_spec (2 * b) (2 * b)); [lia|].
    replace (2 * b + 1 - 2 * b) with 1 by lia. replace (2 * b - 2 * b) with 0 by lia. cbn.
    rewrite !Z.eqb_refl. replace (2 * b + 1 =? 2 * b) with false by lia.
    rewrite ?andb_true_r, ?andb_false_r, ?orb_true_r, ?orb_false_r. repeat split.
  - replace (2 * b + 1 =? 2 * a) with false by lia. replace (2 * b =? 2 * a) with false by lia.
    destruct (Z.ltb_spec (2 * b + 1) (2 * a)); destruct (Z.ltb_spec (2 * b) (2 * a)); try lia;
      rewrite ?bit1, ?bit2, ?bit3 by lia;
      rewrite ?(proj2 (Z.eqb_neq (2 * b + 1 - 2 * a) 0)), ?(proj2 (Z.eqb_neq (2 * b + 1 - 2 * a) 1)),
              ?(proj2 (Z.eqb_neq (2 * b - 2 * a) 0)), ?(proj2 (Z.eqb_neq (2 * b - 2 * a) 1)) by lia;
      cbn; rewrite ?andb_true_r, ?orb_false_r; repeat split.
Qed.
(** the combined test *)
Theorem C24_iseither_is_the_disjunction :
  forall w i, 0 <= i -> w_iseither w i = w_isempty w i || w_isdel w i.
Proof.
  intros w i H. unfold w_iseither, w_isempty, w_isdel. generalize (Z.shiftr w (fshift i)). intros x.
  change 3 with (Z.lor 2 1). rewrite Z.land_lor_distr_r.
  destruct (Z.eqb_spec (Z.lor (Z.land x 2) (Z.land x 1)) 0) as [E|E].
  - apply Z.lor_eq_0_iff in E. destruct E as [-> ->]. reflexivity.
  - destruct (Z.eqb_spec (Z.land x 2) 0) as [A|A]; [|reflexivity].
    destruct (Z.eqb_spec (Z.land x 1) 0) as [B|B]; [|reflexivity]. rewrite A, B in E. contradiction.
Qed.
(** freshly initialised flags say: empty, not deleted *)
Theorem C24_fresh_flags_are_empty :
  forall i, 0 <= i -> flag_of (fun _ => fresh_word) i = (true, false).
Proof.
  intros i H. unfold flag_of. rewrite isempty_bit, isdel_bit by lia.
  pose proof (Z.mod_pos_bound i 16 ltac:(lia)).
  assert (C : forall a, 0 <= a < 16 -> Z.testbit fresh_word (2 * a + 1) = true /\ Z.testbit fresh_word (2 * a) = false).
  { intros a Ha. assert (a = 0 \/ a = 1 \/ a = 2 \/ a = 3 \/ a = 4 \/ a = 5 \/ a = 6 \/ a = 7 \/ a = 8 \/ a = 9 \/
                         a = 10 \/ a = 11 \/ a = 12 \/ a = 13 \/ a = 14 \/ a = 15) by lia.
    repeat match goal with H : _ \/ _ |- _ => destruct H as [H|H] end; subst a; split; reflexivity. }
  destruct (C (i mod 16)) as [-> ->]; [lia|reflexivity].
Qed.
(** Finding: copying the new flags back reads one word behind the array of
    ac_fsize(new_n) words whenever new_n >= 16 (khash.h 120-122).  The word goes
    to the unused flag word that follows the last group. *)
Lemma finding_flag_copy_reads_past_the_end :
  forall n, 16 <= n -> exists j, In j (flag_copy_reads n) /\ ac_fsize n <= j.
Proof.
  intros n H. exists (n / 16). unfold flag_copy_reads, ac_fsize. rewrite shr4. split.
  - assert (G : forall a k x, In x (zseq a k) <-> a <= x < a + Z.of_nat k).
    { intros a k. revert a. induction k as [|k IH]; intros a x; cbn [zseq In]; [lia|]. rewrite IH. lia. }
    apply G. lia.
  - destruct (Z.ltb_spec n 16); lia.
Qed.
