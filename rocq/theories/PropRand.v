(** Property C44: the random generator. *)
From Coq Require Import ZifyBool.
From Verif Require Import Base Arr WordModel WordProofs RandModel.
Ltac Zify.zify_post_hook ::= Z.div_mod_to_equations.

(** ** Specification: the MT19937 recurrence (Matsumoto and Nishimura 1998) *)
(** the top bit of u joined to the low 31 bits of v, multiplied by the matrix A *)
Definition mix (u v : Z) : Z := u / 2 ^ 31 * 2 ^ 31 + v mod 2 ^ 31.
Definition mulA (y : Z) : Z := Z.lxor (y / 2) (if Z.odd y then 2567483615 else 0).
(** x_0 .. x_623 from the seed (Knuth's generator), then the recurrence *)
Definition mt_sequence (seed : Z) (x : Z -> Z) : Prop :=
  x 0 = seed mod 2 ^ 32 /\
  (forall j, 0 < j < 624 -> x j = (1812433253 * Z.lxor (x (j - 1)) (x (j - 1) / 2 ^ 30) + j) mod 2 ^ 32) /\
  (forall k, 0 <= k -> x (k + 624) = Z.lxor (x (k + 397)) (mulA (mix (x k) (x (k + 1))))).
(** the output transformation on 32-bit words *)
Definition out (y : Z) : Z :=
  let y := Z.lxor y (y / 2 ^ 11) in
  let y := Z.lxor y (Z.land (y * 2 ^ 7 mod 2 ^ 32) 2636928640) in
  let y := Z.lxor y (Z.land (y * 2 ^ 15 mod 2 ^ 32) 4022730752) in
  Z.lxor y (y / 2 ^ 18).

(** ** 32-bit words *)
Definition w32 (y : Z) : Prop := 0 <= y < 2 ^ 32.
Lemma w32_bits y : 0 <= y -> (w32 y <-> forall n, 32 <= n -> Z.testbit y n = false).
Proof.
  intros H. split.
  - intros [_ L] n Hn. destruct (Z.eq_dec y 0) as [->|N]; [apply Z.bits_0|].
    apply Z.bits_above_log2; auto. apply Z.log2_lt_pow2 in L; lia.
  - intros B. split; auto. destruct (Z.eq_dec y 0) as [->|N]; [lia|].
    apply Z.log2_lt_pow2; [lia|]. destruct (Z_lt_ge_dec (Z.log2 y) 32); auto.
    specialize (B (Z.log2 y) ltac:(lia)). rewrite Z.bit_log2 in B by lia. discriminate.
Qed.
Lemma w32_lxor a b : w32 a -> w32 b -> w32 (Z.lxor a b).
Proof.
  intros Ha Hb. pose proof Ha as [A _]. pose proof Hb as [B _].
  apply w32_bits; [apply Z.lxor_nonneg; lia|].
  apply (w32_bits a A) in Ha as Ba || idtac.
  intros n Hn. rewrite Z.lxor_spec. rewrite (proj1 (w32_bits a A) Ha n Hn), (proj1 (w32_bits b B) Hb n Hn). reflexivity.
Qed.
Lemma w32_land a b : w32 b -> 0 <= a -> w32 (Z.land a b).
Proof.
  intros Hb A. pose proof Hb as [B _]. apply w32_bits; [apply Z.land_nonneg; auto|].
  intros n Hn. rewrite Z.land_spec. rewrite (proj1 (w32_bits b B) Hb n Hn). apply andb_false_r.
Qed.
Lemma w32_mod a : w32 (a mod 2 ^ 32). Proof. unfold w32. apply Z.mod_pos_bound. lia. Qed.
Lemma w32_div a b : w32 a -> 0 < b -> w32 (a / b).
Proof. unfold w32. intros [A B] Hb. split; [apply Z.div_pos; lia|]. apply Z.le_lt_trans with a; [|lia]. apply Z.div_le_upper_bound; nia. Qed.
Lemma and32 a : Z.land a 4294967295 = a mod 2 ^ 32.
Proof. change 4294967295 with (Z.ones 32). apply Z.land_ones. lia. Qed.

Lemma twist_eq u v : w32 u -> w32 v -> TWIST u v = mulA (mix u v).
Proof.
  intros Hu Hv. unfold TWIST, mulA.
  assert (E : MIXBITS u v = mix u v).
  { unfold MIXBITS, mix. change LMASK with (Z.ones 31). rewrite Z.land_ones by lia.
    assert (E1 : Z.land u UMASK = u / 2 ^ 31 * 2 ^ 31).
    { change UMASK with (Z.shiftl 1 31). apply Z.bits_inj'. intros n Hn.
      rewrite Z.land_spec, Z.shiftl_spec by auto. rewrite <- Z.shiftr_div_pow2, <- Z.shiftl_mul_pow2 by lia.
      rewrite Z.shiftl_spec by auto.
      destruct (Z_lt_ge_dec n 31).
      - rewrite !(Z.testbit_neg_r _ (n - 31)) by lia. apply andb_false_r.
      - rewrite Z.shiftr_spec by lia. replace (n - 31 + 31) with n by lia.
        destruct (Z.eq_dec n 31) as [->|N]; [cbn; apply andb_true_r|].
        rewrite (proj1 (w32_bits u (proj1 Hu)) Hu n) by lia. reflexivity. }
    rewrite E1. rewrite <- Z.lxor_lor, <- Z.add_nocarry_lxor; auto; apply Z.bits_inj'; intros n Hn;
      rewrite Z.land_spec, Z.bits_0, <- Z.shiftl_mul_pow2 by lia; rewrite Z.shiftl_spec by auto;
      (destruct (Z_lt_ge_dec n 31); [rewrite (Z.testbit_neg_r _ (n - 31)) by lia; reflexivity|
       rewrite Z.mod_pow2_bits_high by lia; apply andb_false_r]). }
  rewrite E. f_equal.
  - rewrite Z.shiftr_div_pow2 by lia. reflexivity.
  - assert (O : Z.odd (mix u v) = Z.odd v).
    { unfold mix. rewrite Z.odd_add, Z.odd_mul. change (Z.odd (2 ^ 31)) with false. rewrite andb_false_r.
      rewrite <- !Z.bit0_odd. rewrite Z.mod_pow2_bits_low by lia. destruct (Z.testbit v 0); reflexivity. }
    rewrite O. change 1 with (Z.ones 1). rewrite Z.land_ones by lia. change (2 ^ 1) with 2.
    rewrite Zmod_odd. destruct (Z.odd v); reflexivity.
Qed.
Lemma mix_w32 u v : w32 u -> w32 v -> w32 (mix u v).
Proof. unfold w32, mix. intros [A B] [C D]. pose proof (Z.mod_pos_bound v (2 ^ 31)). lia. Qed.
Lemma mulA_w32 y : w32 y -> w32 (mulA y).
Proof. intros H. unfold mulA. apply w32_lxor; [apply w32_div; auto; lia|]. destruct (Z.odd y); unfold w32; lia. Qed.

Lemma temper_eq y : w32 y -> temper y = out y.
Proof.
  intros H. unfold temper, out.
  assert (S : forall z k m, w32 z -> w32 m -> 0 <= k < 32 -> Z.land (u64 (Z.shiftl z k)) m = Z.land (z * 2 ^ k mod 2 ^ 32) m).
  { intros z k m Hz Hm Hk. unfold u64. change two64 with (2 ^ 64). rewrite Z.shiftl_mul_pow2 by lia.
    apply Z.bits_inj'. intros n Hn. rewrite !Z.land_spec.
    destruct (Z_lt_ge_dec n 32).
    - rewrite !Z.mod_pow2_bits_low by lia. reflexivity.
    - rewrite (proj1 (w32_bits m (proj1 Hm)) Hm n) by lia. rewrite !andb_false_r. reflexivity. }
  rewrite (Z.shiftr_div_pow2 y 11) by lia.
  assert (H1 : w32 (Z.lxor y (y / 2 ^ 11))) by (apply w32_lxor; auto; apply w32_div; auto; lia).
  set (y1 := Z.lxor y (y / 2 ^ 11)) in *.
  rewrite (S y1 7) by (auto; unfold w32; lia).
  assert (H2 : w32 (Z.lxor y1 (Z.land (y1 * 2 ^ 7 mod 2 ^ 32) 2636928640))).
  { apply w32_lxor; auto. apply w32_land; [unfold w32; lia|]. apply w32_mod. }
  set (y2 := Z.lxor y1 _) in *.
  rewrite (S y2 15) by (auto; unfold w32; lia).
  set (y3 := Z.lxor y2 _). rewrite (Z.shiftr_div_pow2 y3 18) by lia. reflexivity.
Qed.
Lemma out_w32 y : w32 y -> w32 (out y).
Proof.
  intros H. unfold out.
  assert (K : forall z k m, w32 m -> w32 (Z.land (z * 2 ^ k mod 2 ^ 32) m)).
  { intros. apply w32_land; auto. apply w32_mod. }
  assert (H1 : w32 (Z.lxor y (y / 2 ^ 11))) by (apply w32_lxor; auto; apply w32_div; auto; lia).
  set (y1 := Z.lxor y (y / 2 ^ 11)) in *.
  assert (H2 : w32 (Z.lxor y1 (Z.land (y1 * 2 ^ 7 mod 2 ^ 32) 2636928640))) by (apply w32_lxor; auto; apply K; unfold w32; lia).
  set (y2 := Z.lxor y1 _) in *.
  assert (H3 : w32 (Z.lxor y2 (Z.land (y2 * 2 ^ 15 mod 2 ^ 32) 4022730752))) by (apply w32_lxor; auto; apply K; unfold w32; lia).
  set (y3 := Z.lxor y2 _) in *. apply w32_lxor; auto. apply w32_div; auto; lia.
Qed.

(** every term of the sequence is a 32-bit word *)
Lemma seq_w32 s x : mt_sequence s x -> forall k, 0 <= k -> w32 (x k).
Proof.
  intros (X0 & Xi & Xr).
  assert (G : forall n k, 0 <= k -> (Z.to_nat k < n)%nat -> w32 (x k)).
  { induction n as [|n IH]; intros k Hk Hn; [lia|].
    destruct (Z_lt_ge_dec k 624).
    - destruct (Z.eq_dec k 0) as [->|N]; [rewrite X0; apply w32_mod|]. rewrite Xi by lia. apply w32_mod.
    - replace k with (k - 624 + 624) by lia. rewrite Xr by lia. apply w32_lxor; [apply IH; lia|].
      apply mulA_w32, mix_w32; apply IH; lia. }
  intros k Hk. apply (G (S (Z.to_nat k))); lia.
Qed.

(** ** The generator follows the sequence *)
Section Follow.
Variables (s : Z) (x : Z -> Z).
Hypothesis X : mt_sequence s x.
Let W := seq_w32 s x X.

Lemma init_follows : forall n st j, zlen st = 624 -> 1 <= j -> j + Z.of_nat n <= 624 ->
  (forall i, 0 <= i < j -> znth st i = x i) ->
  exists st', init_loop st j n = Ok st' /\ zlen st' = 624 /\ (forall i, 0 <= i < j + Z.of_nat n -> znth st' i = x i).
Proof.
  pose proof X as (X0 & Xi & Xr).
  induction n as [|n IH]; intros st j L Hj Hn A; cbn [init_loop].
  - exists st. split; auto. split; auto. intros i Hi. apply A. lia.
  - rewrite rd_ok by lia. cbn [bind]. rewrite wr_ok by lia. cbn [bind].
    destruct (IH (upd st j (Z.land (u64 (u64 (1812433253 * Z.lxor (znth st (j - 1)) (Z.shiftr (znth st (j - 1)) 30)) + j)) 4294967295)) (j + 1))
      as (st' & E & L' & A').
    + rewrite zlen_upd by lia. auto.
    + lia.
    + lia.
    + intros i Hi. destruct (Z.eq_dec i j) as [->|N].
      * rewrite znth_upd_same by lia. rewrite A by lia. rewrite (Xi j) by lia. rewrite and32.
        unfold u64. change two64 with (2 ^ 32 * 2 ^ 32). rewrite Z.shiftr_div_pow2 by lia.
        set (q := 1812433253 * _).
        assert (M : forall a, a mod (2 ^ 32 * 2 ^ 32) mod 2 ^ 32 = a mod 2 ^ 32).
        { intros a. symmetry. apply Znumtheory.Zmod_div_mod; [reflexivity|reflexivity|]. exists (2 ^ 32). reflexivity. }
        rewrite M. rewrite <- Zplus_mod_idemp_l, M, Zplus_mod_idemp_l. reflexivity.
      * rewrite znth_upd_other by lia. apply A. lia.
    + exists st'. split; auto. split; auto. intros i Hi. apply A'. lia.
Qed.

(** [half st b i]: the first i words are already those of the next round *)
Definition half (st : list Z) (b i : Z) : Prop :=
  zlen st = 624 /\ (forall j, 0 <= j < i -> znth st j = x (b + 624 + j)) /\
  (forall j, i <= j < 624 -> znth st j = x (b + j)).
Lemma half_step st b i m : 0 <= b -> half st b i -> 0 <= i < 624 -> m = x (b + i + 397) ->
  (i + 1 < 624 \/ i + 1 = 624) ->
  half (upd st i (Z.lxor m (TWIST (znth st i) (x (b + i + 1))))) b (i + 1).
Proof.
  intros Hb (L & A & B) Hi -> _. split; [rewrite zlen_upd by lia; auto|]. split.
  - intros j Hj. destruct (Z.eq_dec j i) as [->|N].
    + rewrite znth_upd_same by lia. rewrite B by lia. pose proof X as (_ & _ & Xr).
      replace (b + 624 + i) with (b + i + 624) by lia. rewrite Xr by lia.
      rewrite twist_eq by (apply W; lia). reflexivity.
    + rewrite znth_upd_other by lia. apply A. lia.
  - intros j Hj. rewrite znth_upd_other by lia. apply B. lia.
Qed.
Lemma next1_follows : forall n st b i, 0 <= b -> half st b i -> 0 <= i -> i + Z.of_nat n <= 227 ->
  exists st', next1 st i n = Ok st' /\ half st' b (i + Z.of_nat n).
Proof.
  induction n as [|n IH]; intros st b i Hb H Hi Hn; cbn [next1].
  - exists st. rewrite Z.add_0_r. auto.
  - destruct H as (L & A & B). change MT_M with 397. rewrite !rd_ok by lia. cbn [bind]. rewrite wr_ok by lia. cbn [bind].
    destruct (IH (upd st i (Z.lxor (znth st (i + 397)) (TWIST (znth st i) (znth st (i + 1))))) b (i + 1) Hb) as (st' & E & H').
    + rewrite (B (i + 1)) by lia. replace (b + (i + 1)) with (b + i + 1) by lia.
      apply half_step; auto; try lia. * split; auto. * rewrite B by lia. f_equal; lia.
    + lia.
    + lia.
    + exists st'. split; auto. replace (i + Z.of_nat (S n)) with (i + 1 + Z.of_nat n) by lia. auto.
Qed.
Lemma next2_follows : forall n st b i, 0 <= b -> half st b i -> 227 <= i -> i + Z.of_nat n <= 623 ->
  exists st', next2 st i n = Ok st' /\ half st' b (i + Z.of_nat n).
Proof.
  induction n as [|n IH]; intros st b i Hb H Hi Hn; cbn [next2].
  - exists st. rewrite Z.add_0_r. auto.
  - destruct H as (L & A & B). change MT_M with 397. change MT_N with 624. rewrite !rd_ok by lia. cbn [bind]. rewrite wr_ok by lia. cbn [bind].
    destruct (IH (upd st i (Z.lxor (znth st (i + 397 - 624)) (TWIST (znth st i) (znth st (i + 1))))) b (i + 1) Hb) as (st' & E & H').
    + rewrite (B (i + 1)) by lia. replace (b + (i + 1)) with (b + i + 1) by lia.
      apply half_step; auto; try lia. * split; auto. * rewrite A by lia. f_equal; lia.
    + lia.
    + lia.
    + exists st'. split; auto. replace (i + Z.of_nat (S n)) with (i + 1 + Z.of_nat n) by lia. auto.
Qed.
Lemma next_follows g b : 0 <= b -> r_initf g = true -> zlen (r_state g) = 624 ->
  (forall j, 0 <= j < 624 -> znth (r_state g) j = x (b + j)) ->
  exists st', next_state g = Ok (mkR st' 624 true 0) /\ zlen st' = 624 /\
    (forall j, 0 <= j < 624 -> znth st' j = x (b + 624 + j)).
Proof.
  intros Hb Hi L A. unfold next_state. rewrite Hi. cbn [bind].
  destruct (next1_follows (Z.to_nat (MT_N - MT_M)) (r_state g) b 0 Hb) as (s1 & E1 & H1).
  { split; auto. split; [intros; lia|auto]. } { lia. } { vm_compute. discriminate. }
  rewrite E1. cbn [bind]. change (0 + Z.of_nat (Z.to_nat (MT_N - MT_M))) with 227 in H1.
  destruct (next2_follows (Z.to_nat (MT_M - 1)) s1 b (MT_N - MT_M) Hb H1) as (s2 & E2 & H2).
  { vm_compute. discriminate. } { vm_compute. discriminate. }
  rewrite E2. cbn [bind]. change (MT_N - MT_M + Z.of_nat (Z.to_nat (MT_M - 1))) with 623 in H2.
  pose proof H2 as (L2 & A2 & B2). change (MT_N - 1 + MT_M - MT_N) with 396. change (MT_N - 1) with 623.
  rewrite !rd_ok by lia. cbn [bind]. rewrite wr_ok by lia. cbn [bind]. rewrite Hi.
  eexists. split; [reflexivity|].
  assert (H3 : half (upd s2 623 (Z.lxor (znth s2 396) (TWIST (znth s2 623) (znth s2 0)))) b (623 + 1)).
  { rewrite (A2 0) by lia. replace (b + 624 + 0) with (b + 623 + 1) by lia.
    apply half_step; auto; try lia. rewrite A2 by lia. f_equal; lia. }
  destruct H3 as (L3 & A3 & _). split; auto. 
Qed.

(** the state after k outputs: the words are a block of the sequence *)
Definition at_output (g : rng) (k : Z) : Prop :=
  r_initf g = true /\ zlen (r_state g) = 624 /\ 1 <= r_left g <= 624 /\
  exists b, 0 <= b /\ (forall j, 0 <= j < 624 -> znth (r_state g) j = x (b + j)) /\
    k = b + 1 - r_left g /\ (r_left g = 1 \/ r_next g = 625 - r_left g).
Lemma rand_int_follows g k : 0 <= k -> at_output g k ->
  exists g', rand_int g = Ok (g', out (x (k + 624))) /\ at_output g' (k + 1).
Proof.
  intros Hk (Hi & L & Hl & b & Hb & A & K & N). unfold rand_int.
  destruct (r_left g - 1 =? 0) eqn:E.
  - destruct (next_follows (mkR (r_state g) (r_left g - 1) (r_initf g) (r_next g)) b Hb Hi L A) as (st' & -> & L' & A').
    cbn [bind r_state r_next r_left r_initf]. rewrite rd_ok by lia. cbn [bind].
    eexists. split; [rewrite A' by lia; rewrite temper_eq by (apply W; lia); replace (b + 624 + 0) with (k + 624) by lia; reflexivity|].
    split; [reflexivity|]. split; [exact L'|]. cbn [r_left r_next r_state]. split; [lia|].
    exists (b + 624). split; [lia|]. split; [exact A'|]. split; [lia|]. right. lia.
  - cbn [bind r_state r_next r_left r_initf]. destruct N as [N|N]; [lia|].
    rewrite rd_ok by lia. cbn [bind]. rewrite A by lia. rewrite temper_eq by (apply W; lia).
    replace (b + r_next g) with (k + 624) by lia. eexists. split; [reflexivity|].
    split; [exact Hi|]. split; [exact L|]. cbn [r_left r_next r_state]. split; [lia|].
    exists b. split; [lia|]. split; [exact A|]. split; lia.
Qed.
Lemma draws_follow : forall n g k, 0 <= k -> at_output g k ->
  exists g', draws g n = Ok (g', map (fun i => out (x (i + 624))) (zseq k n)) /\ at_output g' (k + Z.of_nat n).
Proof.
  induction n as [|n IH]; intros g k Hk H; cbn [draws zseq map].
  - exists g. rewrite Z.add_0_r. auto.
  - destruct (rand_int_follows g k Hk H) as (g1 & -> & H1). cbn [bind].
    destruct (IH g1 (k + 1) ltac:(lia) H1) as (g2 & -> & H2). cbn [bind]. exists g2. split; auto.
    replace (k + Z.of_nat (S n)) with (k + 1 + Z.of_nat n) by lia. auto.
Qed.
Lemma init_at g : zlen (r_state g) = 624 -> 0 <= s -> exists g', init_genrand g s = Ok g' /\ at_output g' 0.
Proof.
  intros L Hs. unfold init_genrand. rewrite wr_ok by lia. cbn [bind].
  destruct (init_follows 623 (upd (r_state g) 0 (Z.land s 4294967295)) 1) as (st & -> & L' & A).
  - rewrite zlen_upd by lia. auto.
  - lia.
  - lia.
  - intros i Hi. replace i with 0 by lia. rewrite znth_upd_same by lia. rewrite and32. pose proof X as (X0 & _). auto.
  - cbn [bind]. eexists. split; [reflexivity|]. split; [reflexivity|]. split; [exact L'|]. cbn [r_left r_next r_state].
    split; [lia|]. exists 0. split; [lia|]. split; [|lia]. intros j Hj. rewrite A by lia. f_equal; lia.
Qed.
End Follow.

(** ** The sequence exists (so the theorems below are not empty) *)
Definition wstep (w : list Z) : list Z :=
  tl w ++ [Z.lxor (znth w 397) (mulA (mix (znth w 0) (znth w 1)))].
Fixpoint w0 (prev j : Z) (n : nat) : list Z :=
  match n with
  | O => []
  | S n => let v := (1812433253 * Z.lxor prev (prev / 2 ^ 30) + j) mod 2 ^ 32 in v :: w0 v (j + 1) n
  end.
Definition seed_block (s : Z) : list Z := s mod 2 ^ 32 :: w0 (s mod 2 ^ 32) 1 623.
Definition the_sequence (s k : Z) : Z := znth (Nat.iter (Z.to_nat k) wstep (seed_block s)) 0.
Lemma wstep_len w : zlen w = 624 -> zlen (wstep w) = 624.
Proof. intros L. unfold wstep. destruct w as [|a w]; [discriminate|]. cbn [tl]. rewrite zlen_app, zlen_cons in *. change (zlen (@nil Z)) with 0. lia. Qed.
Lemma wstep_nth w i : zlen w = 624 -> 0 <= i < 623 -> znth (wstep w) i = znth w (i + 1).
Proof.
  intros L Hi. unfold wstep. destruct w as [|a w]; [discriminate|]. cbn [tl]. rewrite zlen_cons in L.
  rewrite znth_app1 by lia. rewrite (znth_consS a w (i + 1)) by lia. f_equal; lia.
Qed.
Lemma wstep_last w : zlen w = 624 -> znth (wstep w) 623 = Z.lxor (znth w 397) (mulA (mix (znth w 0) (znth w 1))).
Proof.
  intros L. unfold wstep at 1. destruct w as [|a w]; [discriminate|]. cbn [tl]. rewrite zlen_cons in L.
  rewrite znth_app2 by lia. replace (623 - zlen w) with 0 by lia. reflexivity.
Qed.
Lemma w0_len : forall n p j, zlen (w0 p j n) = Z.of_nat n.
Proof. induction n as [|n IH]; intros; cbn [w0]; [reflexivity|]. rewrite zlen_cons, IH. lia. Qed.
Lemma iter_len s n : zlen (Nat.iter n wstep (seed_block s)) = 624.
Proof.
  induction n as [|n IH]; [|cbn [Nat.iter nat_rect]; apply wstep_len; exact IH].
  cbn [Nat.iter nat_rect]. unfold seed_block. rewrite zlen_cons, w0_len. reflexivity.
Qed.
Lemma iter_nth s : forall i n, 0 <= i < 624 -> znth (Nat.iter n wstep (seed_block s)) i = the_sequence s (Z.of_nat n + i).
Proof.
  intros i n Hi. unfold the_sequence.
  assert (G : forall (m : nat) n, (m < 624)%nat ->
     znth (Nat.iter n wstep (seed_block s)) (Z.of_nat m) = znth (Nat.iter (n + m) wstep (seed_block s)) 0).
  { induction m as [|m IH]; intros k Hm; [rewrite Nat.add_0_r; reflexivity|].
    replace (k + S m)%nat with (S k + m)%nat by lia. rewrite <- IH by lia.
    cbn [Nat.iter nat_rect]. change (nat_rect (fun _ => list Z) (seed_block s) (fun _ => wstep) k) with (Nat.iter k wstep (seed_block s)).
    rewrite wstep_nth by (try apply iter_len; lia). f_equal. lia. }
  replace i with (Z.of_nat (Z.to_nat i)) by lia. rewrite G by lia. do 2 f_equal. lia.
Qed.
Lemma w0_nth : forall n p j i, 0 <= i < Z.of_nat n ->
  znth (w0 p j n) i = (1812433253 * Z.lxor (znth (p :: w0 p j n) i) (znth (p :: w0 p j n) i / 2 ^ 30) + (j + i)) mod 2 ^ 32.
Proof.
  induction n as [|n IH]; intros p j i Hi; [lia|]. cbn [w0].
  destruct (Z.eq_dec i 0) as [->|N].
  - rewrite !znth_cons0. f_equal. lia.
  - rewrite (znth_consS p) by lia. rewrite znth_consS at 1 by lia. rewrite IH by lia.
    do 2 f_equal. lia.
Qed.
Theorem C44_sequence_exists : forall seed, mt_sequence seed (the_sequence seed).
Proof.
  intros s. split; [reflexivity|]. split.
  - intros j Hj.
    pose proof (iter_nth s j 0 ltac:(lia)) as A. pose proof (iter_nth s (j - 1) 0 ltac:(lia)) as B.
    change (Z.of_nat 0) with 0 in A, B. rewrite Z.add_0_l in A, B. rewrite <- A, <- B.
    change (Nat.iter 0 wstep (seed_block s)) with (seed_block s). unfold seed_block.
    rewrite znth_consS at 1 by lia. rewrite w0_nth by lia. do 2 f_equal. lia.
  - intros k Hk.
    assert (A : forall i, 0 <= i < 624 -> znth (Nat.iter (Z.to_nat k) wstep (seed_block s)) i = the_sequence s (k + i)).
    { intros i Hi. rewrite iter_nth by auto. f_equal. lia. }
    rewrite <- (A 397) by lia. rewrite <- (A 1) by lia. replace (the_sequence s k) with (the_sequence s (k + 0)) by (f_equal; lia). rewrite <- (A 0) by lia.
    rewrite <- wstep_last by apply iter_len.
    change (wstep (Nat.iter (Z.to_nat k) wstep (seed_block s))) with (Nat.iter (S (Z.to_nat k)) wstep (seed_block s)).
    rewrite iter_nth by lia. f_equal. lia.
Qed.

(** ** Theorems *)
(** After seeding, from whatever state the generator was in, the numbers drawn are
    exactly the transformed terms 624, 625, ... of the MT19937 sequence of the seed. *)
Theorem C44_follows_recurrence : forall g seed x n, zlen (r_state g) = 624 ->
  mt_sequence (u64 (PN_INT seed)) x ->
  exists g1 g2, srand g seed = Ok g1 /\ draws g1 n = Ok (g2, map (fun i => out (x (i + 624))) (zseq 0 n)).
Proof.
  intros g seed x n L X. unfold srand.
  destruct (init_at _ x X g L) as (g1 & -> & H1). { unfold u64, two64. lia. }
  destruct (draws_follow _ x X n g1 0 ltac:(lia) H1) as (g2 & E & _). eauto.
Qed.
Lemma unseeded_first st nx g1 : init_genrand (mkR st 0 false nx) 5489 = Ok g1 ->
  rand_int (mkR st 1 false nx) = rand_int g1.
Proof.
  intros E1. unfold rand_int at 1. cbn [r_left r_state r_initf r_next]. change (1 - 1) with 0. change (0 =? 0) with true. cbn iota.
  unfold next_state at 1. cbn [r_initf]. rewrite E1. cbn [bind].
  unfold init_genrand in E1. cbn [r_state r_next] in E1.
  destruct (wr st 0 (Z.land 5489 4294967295)) as [st1| |]; try discriminate. cbn [bind] in E1.
  destruct (init_loop st1 1 623) as [st2| |]; try discriminate. cbn [bind] in E1.
  assert (G : g1 = mkR st2 1 true nx) by congruence. rewrite G.
  unfold rand_int. cbn [r_left r_state r_initf r_next]. change (1 - 1) with 0. change (0 =? 0) with true. cbn iota.
  unfold next_state. cbn [r_initf r_state bind]. reflexivity.
Qed.
Lemma unseeded_gen st nx x n : zlen st = 624 -> mt_sequence 5489 x ->
  exists g, draws (mkR st 1 false nx) n = Ok (g, map (fun i => out (x (i + 624))) (zseq 0 n)).
Proof.
  intros L X. destruct n as [|n]; [eexists; reflexivity|].
  destruct (init_at 5489 x X (mkR st 0 false nx)) as (g1 & E1 & H1). { exact L. } { lia. }
  pose proof (unseeded_first st nx g1 E1) as R.
  destruct (draws_follow 5489 x X (S n) g1 0 ltac:(lia) H1) as (g2 & E & _). exists g2.
  cbn [draws] in *. rewrite R. exact E.
Qed.
(** Without seeding it behaves as if seeded with 5489. *)
Theorem C44_unseeded : forall x n, mt_sequence 5489 x ->
  exists g, draws rng0 n = Ok (g, map (fun i => out (x (i + 624))) (zseq 0 n)).
Proof. intros x n X. unfold rng0. apply unseeded_gen; auto. Qed.
(** The same seed gives the same numbers, whatever was drawn before. *)
Theorem C44_deterministic : forall g g' seed n, zlen (r_state g) = 624 -> zlen (r_state g') = 624 ->
  exists g1 g1' g2 g2' l, srand g seed = Ok g1 /\ draws g1 n = Ok (g2, l) /\ srand g' seed = Ok g1' /\ draws g1' n = Ok (g2', l).
Proof.
  intros g g' seed n L L'. pose proof (C44_sequence_exists (u64 (PN_INT seed))) as X.
  destruct (C44_follows_recurrence g seed _ n L X) as (g1 & g2 & A & B).
  destruct (C44_follows_recurrence g' seed _ n L' X) as (h1 & h2 & C & D).
  exists g1, h1, g2, h2. eexists. repeat split; eauto.
Qed.
(** Every number drawn is a 32-bit word, and the rand method returns it as that
    integer. *)
Theorem C44_range : forall g seed n, zlen (r_state g) = 624 ->
  exists g1 g2 l, srand g seed = Ok g1 /\ draws g1 n = Ok (g2, l) /\ Forall (fun y => 0 <= y < 2 ^ 32 /\ PN_INT (PN_NUM y) = y) l.
Proof.
  intros g seed n L. pose proof (C44_sequence_exists (u64 (PN_INT seed))) as X.
  destruct (C44_follows_recurrence g seed _ n L X) as (g1 & g2 & A & B). exists g1, g2. eexists. split; [exact A|]. split; [exact B|].
  apply Forall_forall. intros y Hy. apply in_map_iff in Hy. destruct Hy as (i & <- & Hi).
  assert (Pi : 0 <= i).
  { clear -Hi. assert (G : forall n a, 0 <= a -> In i (zseq a n) -> 0 <= i).
    { induction n0 as [|m IH]; intros a Ha I; [destruct I|]. cbn [zseq] in I. destruct I as [<-|I]; [auto|]. eapply IH; [|exact I]. lia. }
    eapply G; [|exact Hi]. lia. }
  assert (w32 (out (the_sequence (u64 (PN_INT seed)) (i + 624)))) as O.
  { apply out_w32. apply (seq_w32 _ _ X). lia. }
  unfold w32 in O. split; [exact O|]. apply PN_INT_NUM. apply repb_spec. unfold two62. lia.
Qed.
(** rand sent to a number is documented to give a fraction between 0 and 1; it gives the
    integer 0, always. *)
Theorem C44_number_rand_refuted : forall g seed, zlen (r_state g) = 624 ->
  exists g1 g2, srand g seed = Ok g1 /\ num_rand g1 = Ok (g2, PN_ZERO).
Proof.
  intros g seed L. destruct (C44_range g seed 2 L) as (g1 & g2 & l & A & B & C). exists g1.
  unfold num_rand, rand_double. cbn [draws] in B.
  destruct (rand_int g1) as [[h1 a]| |]; cbn [bind] in *; try discriminate.
  destruct (rand_int h1) as [[h2 b]| |]; cbn [bind] in *; try discriminate.
  injection B as -> <-. exists g2. split; auto.
  pose proof (Forall_inv C) as [Ha _]. pose proof (Forall_inv (Forall_inv_tail C)) as [Hb _]. clear C.
  rewrite !Z.shiftr_div_pow2 by lia.
  replace ((a / 2 ^ 5 * 67108864 + b / 2 ^ 6) / 2 ^ 53) with 0; [reflexivity|].
  symmetry. apply Z.div_small.
  assert (0 <= a / 2 ^ 5 < 2 ^ 27) by lia. assert (0 <= b / 2 ^ 6 < 2 ^ 26) by lia. lia.
Qed.
(** Example: the first outputs for the default seed are the reference ones. *)
Example C44_example : exists g, draws rng0 3 = Ok (g, [3499211612; 581869302; 3890346734]).
Proof. eexists. vm_compute. reflexivity. Qed.
