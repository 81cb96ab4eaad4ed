(** Lemmas about the UTF-8 model. *)
From Coq Require Import ZifyBool.
From Verif Require Import Base Arr WordModel WordProofs Utf8Spec Utf8Model.
Ltac Zify.zify_post_hook ::= Z.div_mod_to_equations.

Definition byteb (b : Z) : bool := (1 <=? b) && (b <=? 255).
Definition zrange (a : Z) (n : nat) := zseq a n.
Lemma zseq_all (p : Z -> bool) n : forall a, forallb p (zseq a n) = true ->
  forall x, a <= x < a + Z.of_nat n -> p x = true.
Proof.
  induction n as [|n IH]; intros a H x Hx; [lia|]. cbn in H. apply andb_prop in H. destruct H as [A B].
  destruct (Z.eq_dec x a) as [->|N]; [exact A|]. apply (IH (a + 1)); [exact B|lia].
Qed.
Lemma byte_all (p : Z -> bool) : forallb p (zseq 0 256) = true -> forall b, 0 <= b <= 255 -> p b = true.
Proof. intros H b Hb. apply (zseq_all p 256 0 H). lia. Qed.

Lemma cont_bit_ok b : 0 <= b <= 255 -> cont_bit b = if iscont b then 1 else 0.
Proof.
  intros H. apply Z.eqb_eq. revert b H. apply byte_all. vm_compute. reflexivity.
Qed.
Lemma starts_ok b : 0 <= b <= 255 -> starts_char b = negb (iscont b).
Proof.
  intros H. apply eqb_true_iff. revert b H. apply byte_all. vm_compute. reflexivity.
Qed.

(** ** words as lists of bytes *)
Fixpoint val (l : list Z) : Z := match l with [] => 0 | b :: l' => b + 256 * val l' end.
Definition byte (b : Z) : Prop := 0 <= b <= 255.
Lemma word8_val b0 b1 b2 b3 b4 b5 b6 b7 :
  word8 b0 b1 b2 b3 b4 b5 b6 b7 = val [b0; b1; b2; b3; b4; b5; b6; b7].
Proof. unfold word8. cbn [val]. lia. Qed.
Lemma val_range l : Forall byte l -> 0 <= val l < 256 ^ Z.of_nat (length l).
Proof.
  induction 1 as [|b l B F IH]; [cbn; lia|]. cbn [val length].
  rewrite Nat2Z.inj_succ, Z.pow_succ_r by lia. unfold byte in B. lia.
Qed.
Lemma land_byte a c : byte a -> 0 <= Z.land a c <= 255.
Proof.
  intros H. unfold byte in H. split; [apply Z.land_nonneg; lia|].
  assert (E : Z.land a c = Z.land (Z.land a c) 255).
  { rewrite <- Z.land_assoc, (Z.land_comm c), Z.land_assoc. f_equal.
    change 255 with (Z.ones 8). rewrite Z.land_ones by lia. rewrite Z.mod_small; [reflexivity|change (2^8) with 256; lia]. }
  rewrite E. change 255 with (Z.ones 8) at 1. rewrite Z.land_ones by lia. change (2 ^ 8) with 256. lia.
Qed.

Lemma land_256 a c x y : byte a -> byte c -> Z.land (a + 256 * x) (c + 256 * y) = Z.land a c + 256 * Z.land x y.
Proof.
  intros Ha Hc. unfold byte in *.
  assert (S : forall p q, 0 <= p <= 255 -> p + 256 * q = Z.lor p (Z.shiftl q 8)).
  { intros p q Hp. rewrite <- Z.lxor_lor, <- Z.add_nocarry_lxor.
    - rewrite Z.shiftl_mul_pow2 by lia. change (2 ^ 8) with 256. lia.
    - apply Z.bits_inj'. intros n Hn. rewrite Z.land_spec, Z.bits_0. rewrite Z.shiftl_spec by lia.
      destruct (Z_lt_le_dec n 8); [rewrite (Z.testbit_neg_r q) by lia; lia|].
      replace (Z.testbit p n) with false; [lia|]. symmetry. apply Z.bits_above_log2; [lia|].
      destruct (Z.eq_dec p 0) as [->|]; [cbn; lia|]. apply Z.log2_lt_pow2; [lia|].
      assert (2 ^ 8 <= 2 ^ n) by (apply Z.pow_le_mono_r; lia). change (2 ^ 8) with 256 in *. lia.
    - apply Z.bits_inj'. intros n Hn. rewrite Z.land_spec, Z.bits_0. rewrite Z.shiftl_spec by lia.
      destruct (Z_lt_le_dec n 8); [rewrite (Z.testbit_neg_r q) by lia; lia|].
      replace (Z.testbit p n) with false; [lia|]. symmetry. apply Z.bits_above_log2; [lia|].
      destruct (Z.eq_dec p 0) as [->|]; [cbn; lia|]. apply Z.log2_lt_pow2; [lia|].
      assert (2 ^ 8 <= 2 ^ n) by (apply Z.pow_le_mono_r; lia). change (2 ^ 8) with 256 in *. lia. }
  assert (L : 0 <= Z.land a c <= 255).
  { apply land_byte. exact Ha. }
  rewrite (S _ x Ha), (S _ y Hc), (S _ _ L).
  apply Z.bits_inj'. intros n Hn. rewrite Z.land_spec, !Z.lor_spec, Z.land_spec, !Z.shiftl_spec by lia.
  destruct (Z_lt_le_dec n 8).
  - rewrite !(Z.testbit_neg_r _ (n - 8)) by lia. rewrite !orb_false_r. reflexivity.
  - rewrite Z.land_spec. assert (B : forall p, 0 <= p <= 255 -> Z.testbit p n = false).
    { intros p Hp. apply Z.bits_above_log2; [lia|]. destruct (Z.eq_dec p 0) as [->|]; [cbn; lia|].
      apply Z.log2_lt_pow2; [lia|]. assert (2 ^ 8 <= 2 ^ n) by (apply Z.pow_le_mono_r; lia). change (2 ^ 8) with 256 in *. lia. }
    rewrite (B a), (B c) by lia. reflexivity.
Qed.
Definition map2 (f : Z -> Z -> Z) (l m : list Z) : list Z := map (fun p => f (fst p) (snd p)) (combine l m).
Lemma land_val l : forall m, length m = length l -> Forall byte l -> Forall byte m ->
  Z.land (val l) (val m) = val (map2 Z.land l m).
Proof.
  induction l as [|a l IH]; intros [|c m] E F G; try discriminate; [reflexivity|].
  cbn [val map2 combine map fst snd]. rewrite land_256 by (eapply Forall_inv; eassumption).
  fold (map2 Z.land l m). rewrite IH; [reflexivity|cbn in E; lia|eapply Forall_inv_tail; eassumption|eapply Forall_inv_tail; eassumption].
Qed.

(** byte-wise subtraction of 0x01..01 with borrow *)
Fixpoint subb (l : list Z) (w : Z) : list Z :=
  match l with
  | [] => []
  | b :: l' => (b - 1 - w) mod 256 :: subb l' (if b - 1 - w <? 0 then 1 else 0)
  end.
Fixpoint ones8 (n : nat) : Z := match n with O => 0 | S n' => 1 + 256 * ones8 n' end.
Lemma subb_ok l : Forall byte l -> forall w, 0 <= w <= 1 ->
  (val l - ones8 (length l) - w) mod 256 ^ Z.of_nat (length l) = val (subb l w).
Proof.
  induction 1 as [|b l B F IH]; intros w Hw; [cbn; rewrite Z.mod_1_r; reflexivity|].
  cbn [val subb length ones8]. rewrite Nat2Z.inj_succ, Z.pow_succ_r by lia.
  set (w' := if b - 1 - w <? 0 then 1 else 0).
  assert (W : b - 1 - w = (b - 1 - w) mod 256 - 256 * w') by (unfold w', byte in *; destruct (b - 1 - w <? 0) eqn:E; lia).
  specialize (IH w'). rewrite <- IH by (unfold w'; destruct (_ <? _); lia).
  assert (P : 0 < 256 ^ Z.of_nat (length l)) by (apply Z.pow_pos_nonneg; lia).
  set (M := 256 ^ Z.of_nat (length l)) in *. set (x := val l - ones8 (length l) - w').
  replace (b + 256 * val l - (1 + 256 * ones8 (length l)) - w) with ((b - 1 - w) mod 256 + 256 * x) by (unfold x; lia).
  clearbody x M. rewrite Z.rem_mul_r by lia. f_equal.
  - clear. generalize (b - 1 - w). intros t. lia.
  - f_equal. f_equal. generalize (b - 1 - w). intros t. lia.
Qed.
Lemma subb_byte l : forall w, Forall byte (subb l w).
Proof. induction l; intros w; cbn; constructor; [unfold byte; lia|apply IHl]. Qed.
Lemma subb_length l : forall w, length (subb l w) = length l.
Proof. induction l; intros w; cbn; [reflexivity|f_equal; apply IHl]. Qed.
Lemma compl_ok l : Forall byte l -> 256 ^ Z.of_nat (length l) - 1 - val l = val (map (fun b => 255 - b) l).
Proof.
  induction 1 as [|b l B F IH]; [reflexivity|]. cbn [val length map].
  rewrite Nat2Z.inj_succ, Z.pow_succ_r by lia. rewrite <- IH. lia.
Qed.
Lemma compl_byte l : Forall byte l -> Forall byte (map (fun b => 255 - b) l).
Proof. induction 1 as [|b l B F IH]; cbn; constructor; [unfold byte in *; lia|exact IH]. Qed.
Lemma val_repeat_128 n : val (repeat 128 n) = 128 * ones8 n.
Proof. induction n as [|n IH]; [reflexivity|]. cbn [repeat val ones8]. lia. Qed.
Lemma val_zero l : Forall byte l -> val l = 0 -> Forall (fun b => b = 0) l.
Proof.
  induction 1 as [|b l B F IH]; intros E; constructor; cbn [val] in E; pose proof (val_range l F); unfold byte in *; [lia|].
  apply IH. lia.
Qed.
Lemma val_all_zero l : Forall (fun b => b = 0) l -> val l = 0.
Proof. induction 1 as [|b l B F IH]; cbn; lia. Qed.

(** the byte of the zero test *)
Definition ztest (l : list Z) (w : Z) : list Z :=
  map2 Z.land (map2 Z.land (subb l w) (map (fun b => 255 - b) l)) (repeat 128 (length l)).
Lemma map2_cons f a l b m : map2 f (a :: l) (b :: m) = f a b :: map2 f l m.
Proof. reflexivity. Qed.
Lemma ztest_nz l : Forall (fun b => 1 <= b <= 255) l -> Forall (fun b => b = 0) (ztest l 0).
Proof.
  unfold ztest. induction 1 as [|b l B F IH]; [constructor|]. cbn [subb map length repeat]. rewrite !map2_cons.
  replace (b - 1 - 0 <? 0) with false by lia. constructor; [|exact IH].
  replace ((b - 1 - 0) mod 256) with (b - 1) by lia.
  assert (X : ((b <=? 0) || (Z.land (Z.land (b - 1) (255 - b)) 128 =? 0)) = true).
  { assert (B' : 0 <= b <= 255) by lia. clear B IH F. revert b B'. apply byte_all. vm_compute. reflexivity. }
  lia.
Qed.
Lemma ztest_z l : Forall byte l -> In 0 l -> ~ Forall (fun b => b = 0) (ztest l 0).
Proof.
  unfold ztest. induction 1 as [|b l B F IH]; [intros []|]. intros I. cbn [subb map length repeat]. rewrite !map2_cons.
  intros G. pose proof (Forall_inv G) as G0. apply Forall_inv_tail in G. cbn in G0.
  destruct (Z.eq_dec b 0) as [->|N].
  - vm_compute in G0. discriminate.
  - destruct I as [I|I]; [lia|]. replace (b - 1 - 0 <? 0) with false in G by (unfold byte in B; lia).
    apply (IH I G).
Qed.
Lemma map2_byte (l m : list Z) : Forall byte l -> Forall byte (map2 Z.land l m).
Proof.
  intros H. revert m. induction H as [|b l B F IH]; intros [|c m]; try constructor; [|apply IH].
  apply land_byte, B.
Qed.
Lemma map2_length f l : forall m, length m = length l -> length (map2 f l m) = length l.
Proof. intros m H. unfold map2. rewrite map_length, combine_length. lia. Qed.
Lemma has_zero_ok l : length l = 8%nat -> Forall byte l ->
  has_zero (val l) = true <-> In 0 l.
Proof.
  intros L F. unfold has_zero.
  assert (E1 : u64 (val l - ONEMASK) = val (subb l 0)).
  { rewrite <- subb_ok by (auto || lia). rewrite L. unfold u64. f_equal. change ONEMASK with (ones8 8). lia. }
  assert (E2 : u64 (Z.lnot (val l)) = val (map (fun b => 255 - b) l)).
  { rewrite <- compl_ok by auto. rewrite L. pose proof (val_range l F) as R. rewrite L in R.
    change (256 ^ Z.of_nat 8) with two64 in *. unfold u64, Z.lnot. unfold two64 in *. lia. }
  assert (E3 : u64 (ONEMASK * 128) = val (repeat 128 8)) by reflexivity.
  rewrite E1, E2, E3.
  assert (LC : length (map (fun b => 255 - b) l) = length (subb l 0)) by (rewrite map_length, subb_length; reflexivity).
  rewrite (land_val (subb l 0) (map _ l) LC (subb_byte l 0) (compl_byte l F)).
  assert (LM : length (map2 Z.land (subb l 0) (map (fun b => 255 - b) l)) = 8%nat)
    by (rewrite map2_length; [rewrite subb_length; exact L|exact LC]).
  assert (R8 : Forall byte (repeat 128 8)) by (cbn; repeat constructor; lia).
  rewrite (land_val _ (repeat 128 8) ltac:(rewrite LM; reflexivity) (map2_byte _ _ (subb_byte l 0)) R8).
  assert (LZ : map2 Z.land (map2 Z.land (subb l 0) (map (fun b => 255 - b) l)) (repeat 128 8) = ztest l 0).
  { unfold ztest. rewrite L. reflexivity. }
  rewrite LZ.
  assert (BZ : Forall byte (ztest l 0)) by (apply map2_byte, map2_byte, subb_byte).
  split.
  - intros H. destruct (in_dec Z.eq_dec 0 l) as [I|N]; [exact I|]. exfalso.
    assert (FN : Forall (fun b => 1 <= b <= 255) l).
    { apply Forall_forall. intros x Hx. rewrite Forall_forall in F. specialize (F x Hx). unfold byte in F.
      destruct (Z.eq_dec x 0) as [->|]; [contradiction|lia]. }
    rewrite (val_all_zero _ (ztest_nz l FN)) in H. discriminate.
  - intros I. destruct (Z.eqb_spec (val (ztest l 0)) 0) as [E|]; [|reflexivity].
    destruct (ztest_z l F I). apply val_zero; assumption.
Qed.

(** continuation bits of a word *)
Definition ncont (l : list Z) : Z := zlen (filter iscont l).
Lemma land_bit x y : 0 <= x <= 1 -> Z.land x y = x * (y mod 2).
Proof.
  intros H. destruct (Z.eq_dec x 0) as [->|]; [rewrite Z.land_0_l; lia|]. replace x with 1 by lia.
  rewrite Z.land_comm. change 1 with (Z.ones 1) at 1. rewrite Z.land_ones by lia. change (2 ^ 1) with 2. lia.
Qed.
Definition bitc (b : Z) : Z := if iscont b then 1 else 0.
Lemma conts_val l : Forall byte l ->
  Z.land (val (map (fun b => b / 128) l)) (val (map (fun b => 255 - b) l) / 64) = val (map bitc l).
Proof.
  induction 1 as [|b l B F IH]; [reflexivity|]. cbn [map val].
  set (M := val (map (fun b => b / 128) l)) in *. set (C := val (map (fun b => 255 - b) l)) in *.
  unfold byte in B.
  replace ((255 - b + 256 * C) / 64) with (((255 - b) / 64 + 4 * C) mod 256 + 256 * (C / 64)) by lia.
  rewrite land_256 by (unfold byte; lia). rewrite IH. f_equal.
  rewrite land_bit by lia. unfold bitc, iscont.
  destruct ((128 <=? b) && (b <=? 191)) eqn:E.
  - replace (b / 128) with 1 by lia. lia.
  - destruct (Z_lt_le_dec b 128); [replace (b / 128) with 0 by lia; lia|].
    replace (b / 128) with 1 by lia. lia.
Qed.
Lemma shiftr7_val l : Forall byte l -> Z.land (val l) (val (repeat 128 (length l))) / 128 = val (map (fun b => b / 128) l).
Proof.
  induction 1 as [|b l B F IH]; [reflexivity|]. cbn [map val repeat length].
  rewrite land_256 by (unfold byte in *; lia). rewrite <- IH.
  assert (X : Z.land b 128 = 128 * (b / 128)).
  { assert (Q : (Z.land b 128 =? 128 * (b / 128)) = true); [|lia]. unfold byte in B. clear IH F. revert b B. apply byte_all. vm_compute. reflexivity. }
  rewrite X. clear X.
  assert (X : Z.land (val l) (val (repeat 128 (length l))) = 128 * (Z.land (val l) (val (repeat 128 (length l))) / 128)).
  { rewrite IH. clear -F. induction F as [|b l B F IH]; [reflexivity|]. cbn [map val repeat length].
    rewrite land_256 by (unfold byte in *; lia). rewrite IH.
    assert (Q : (Z.land b 128 =? 128 * (b / 128)) = true); [|lia]. unfold byte in B. clear IH F. revert b B. apply byte_all. vm_compute. reflexivity. }
  rewrite X at 1. lia.
Qed.
Lemma ncont_cons b l : ncont (b :: l) = bitc b + ncont l.
Proof. unfold ncont, bitc. cbn. destruct (iscont b); [rewrite zlen_cons|]; lia. Qed.
Lemma ncont_app l m : ncont (l ++ m) = ncont l + ncont m.
Proof. unfold ncont. rewrite filter_app, zlen_app. reflexivity. Qed.
Lemma bitc_range b : 0 <= bitc b <= 1. Proof. unfold bitc. destruct (iscont b); lia. Qed.
Lemma mulsum b0 b1 b2 b3 b4 b5 b6 b7 :
  0 <= b0 <= 1 -> 0 <= b1 <= 1 -> 0 <= b2 <= 1 -> 0 <= b3 <= 1 -> 0 <= b4 <= 1 -> 0 <= b5 <= 1 -> 0 <= b6 <= 1 -> 0 <= b7 <= 1 ->
  Z.shiftr (u64 (val [b0; b1; b2; b3; b4; b5; b6; b7] * ONEMASK)) 56 = b0 + b1 + b2 + b3 + b4 + b5 + b6 + b7.
Proof.
  intros. rewrite Z.shiftr_div_pow2 by lia. unfold u64. change (2 ^ 56) with 72057594037927936.
  change ONEMASK with 72340172838076673. unfold two64. cbn [val].
  set (s := b0 + b1 + b2 + b3 + b4 + b5 + b6 + b7).
  symmetry. apply (Z.div_unique _ _ _ (b0 + 256 * ((b0 + b1) + 256 * ((b0+b1+b2) + 256 * ((b0+b1+b2+b3) + 256 * ((b0+b1+b2+b3+b4) + 256 * ((b0+b1+b2+b3+b4+b5) + 256 * (b0+b1+b2+b3+b4+b5+b6))))))));
    [left; lia|].
  set (q := (b1+b2+b3+b4+b5+b6+b7) + 256 * ((b2+b3+b4+b5+b6+b7) + 256 * ((b3+b4+b5+b6+b7) + 256 * ((b4+b5+b6+b7) + 256 * ((b5+b6+b7) + 256 * ((b6+b7) + 256 * b7)))))).
  symmetry. apply (Z.mod_unique _ _ q); [left; unfold s; lia|]. unfold s, q. lia.
Qed.
Lemma word_conts_ok b0 b1 b2 b3 b4 b5 b6 b7 :
  let l := [b0; b1; b2; b3; b4; b5; b6; b7] in Forall byte l -> word_conts (val l) = ncont l.
Proof.
  intros l F. unfold word_conts.
  assert (E2 : u64 (Z.lnot (val l)) = val (map (fun b => 255 - b) l)).
  { rewrite <- compl_ok by auto. pose proof (val_range l F) as R. change (length l) with 8%nat in *.
    change (256 ^ Z.of_nat 8) with two64 in *. unfold u64, Z.lnot. unfold two64 in *. lia. }
  assert (E3 : u64 (ONEMASK * 128) = val (repeat 128 (length l))) by reflexivity.
  rewrite E2, E3. rewrite (Z.shiftr_div_pow2 _ 7), (Z.shiftr_div_pow2 _ 6) by lia. change (2 ^ 7) with 128. change (2 ^ 6) with 64.
  rewrite (shiftr7_val l F), (conts_val l F). unfold l at 1. cbn [map].
  rewrite mulsum by apply bitc_range.
  unfold l. rewrite !ncont_cons. change (ncont []) with 0. lia.
Qed.

(** ** the counter *)
Definition chars (s : list Z) : Prop := Forall (fun b => 1 <= b <= 255) s.
Lemma chars_byte s : chars s -> Forall byte s.
Proof. apply Forall_impl. unfold byte. lia. Qed.
Lemma sl_tail_ok s : chars s -> forall r i c, sl_tail (s ++ 0 :: r) i c = Ok (i + zlen s, c + ncont s).
Proof.
  induction 1 as [|b s B F IH]; intros r i c.
  - cbn [app sl_tail Z.eqb]. change (zlen []) with 0. change (ncont []) with 0. f_equal. f_equal; lia.
  - cbn [app sl_tail]. destruct (Z.eqb_spec b 0); [lia|]. rewrite IH, zlen_cons, ncont_cons, cont_bit_ok by lia.
    f_equal. f_equal; [lia|]. unfold bitc. lia.
Qed.
Lemma sl_words_ok n : forall s r i c a, (length s <= n)%nat -> chars s -> Forall byte r -> (a + i) mod 8 = 0 ->
  (a + i + zlen (s ++ 0 :: r)) mod 8 = 0 ->
  exists s1 s2, s = s1 ++ s2 /\ sl_words (s ++ 0 :: r) i c = Ok (s2 ++ 0 :: r, i + zlen s1, c + ncont s1).
Proof.
  induction n as [n IH] using lt_wf_ind. intros s r i c a L F R A E.
  assert (SHORT : (length s < 8)%nat -> exists s1 s2, s = s1 ++ s2 /\ sl_words (s ++ 0 :: r) i c = Ok (s2 ++ 0 :: r, i + zlen s1, c + ncont s1)).
  { intros S8. exists [], s. split; [reflexivity|].
    assert (L8 : (8 <= length (s ++ 0%Z :: r))%nat).
    { rewrite zlen_app, zlen_cons in E. rewrite app_length. cbn [length]. unfold zlen in *. lia. }
    set (w := s ++ 0%Z :: r) in *.
    assert (W : exists b0 b1 b2 b3 b4 b5 b6 b7 t, w = b0 :: b1 :: b2 :: b3 :: b4 :: b5 :: b6 :: b7 :: t).
    { clear -L8. do 8 (destruct w as [|? w]; [cbn in L8; lia|]). repeat eexists. }
    destruct W as (b0 & b1 & b2 & b3 & b4 & b5 & b6 & b7 & t & W).
    assert (I0 : In 0 [b0; b1; b2; b3; b4; b5; b6; b7]).
    { change [b0; b1; b2; b3; b4; b5; b6; b7] with (firstn 8 (b0 :: b1 :: b2 :: b3 :: b4 :: b5 :: b6 :: b7 :: t)). rewrite <- W. unfold w.
      rewrite firstn_app. apply in_or_app. right.
      destruct (8 - length s)%nat eqn:Q; [lia|]. left. reflexivity. }
    assert (FB : Forall byte [b0; b1; b2; b3; b4; b5; b6; b7]).
    { assert (FW : Forall byte w). { apply Forall_app. split; [apply chars_byte, F|constructor; [unfold byte; lia|exact R]]. }
      rewrite W in FW. repeat (constructor; [eapply Forall_inv; eassumption|apply Forall_inv_tail in FW]). constructor. }
    rewrite W. cbn [sl_words]. rewrite word8_val. rewrite (proj2 (has_zero_ok [b0; b1; b2; b3; b4; b5; b6; b7] eq_refl FB) I0).
    change (ncont []) with 0. change (zlen []) with 0. f_equal. f_equal; [f_equal|]; lia. }
  destruct (Nat.lt_ge_cases (length s) 8) as [S8|S8]; [apply SHORT, S8|].
  assert (W : exists b0 b1 b2 b3 b4 b5 b6 b7 t, s = b0 :: b1 :: b2 :: b3 :: b4 :: b5 :: b6 :: b7 :: t).
  { clear -S8. do 8 (destruct s as [|? s]; [cbn in S8; lia|]). repeat eexists. }
  destruct W as (b0 & b1 & b2 & b3 & b4 & b5 & b6 & b7 & t & ->). clear SHORT S8.
  set (p := [b0; b1; b2; b3; b4; b5; b6; b7]).
  assert (FP : chars p /\ chars t).
  { change (b0 :: b1 :: b2 :: b3 :: b4 :: b5 :: b6 :: b7 :: t) with (p ++ t) in F. apply Forall_app in F. exact F. }
  destruct FP as [FP FT].
  destruct (IH (length t)) with (s := t) (r := r) (i := i + 8) (c := c + ncont p) (a := a) as (s1 & s2 & E1 & E2); auto.
  - cbn [length] in L. lia.
  - lia.
  - cbn [app] in E. rewrite !zlen_cons in E. lia.
  - exists (p ++ s1), s2. split; [cbn; rewrite E1; reflexivity|].
    cbn [app sl_words]. rewrite word8_val. fold p.
    destruct (has_zero (val p)) eqn:H.
    + apply (has_zero_ok p eq_refl (chars_byte _ FP)) in H. exfalso. clear -H FP.
      unfold chars in FP. rewrite Forall_forall in FP. specialize (FP 0 H). lia.
    + pose proof (word_conts_ok b0 b1 b2 b3 b4 b5 b6 b7 (chars_byte _ FP)) as WC. cbn zeta in WC. fold p in WC. rewrite WC, E2.
      rewrite zlen_app, ncont_app. change (zlen p) with 8. f_equal. f_equal; [f_equal|]; lia.
Qed.
Lemma land7 x : Z.land x 7 = x mod 8.
Proof. change 7 with (Z.ones 3). rewrite Z.land_ones by lia. reflexivity. Qed.
Lemma sl_head_ok a s : chars s -> forall r i c,
  (exists s1 s2, s = s1 ++ s2 /\ (a + i + zlen s1) mod 8 = 0 /\
     sl_head a (s ++ 0 :: r) i c = Ok (false, s2 ++ 0 :: r, i + zlen s1, c + ncont s1)) \/
  (exists l, sl_head a (s ++ 0 :: r) i c = Ok (true, l, i + zlen s, c + ncont s)).
Proof.
  induction 1 as [|b s B F IH]; intros r i c; cbn [app sl_head]; rewrite land7.
  - destruct (Z.eqb_spec ((a + i) mod 8) 0) as [E|E].
    + left. exists [], []. split; [reflexivity|]. change (zlen []) with 0. change (ncont []) with 0.
      split; [rewrite Z.add_0_r; exact E|]. f_equal. f_equal; [f_equal|]; lia.
    + right. eexists. cbn [Z.eqb]. change (zlen []) with 0. change (ncont []) with 0. rewrite !Z.add_0_r. reflexivity.
  - destruct (Z.eqb_spec ((a + i) mod 8) 0) as [E|E].
    + left. exists [], (b :: s). split; [reflexivity|]. change (zlen []) with 0. change (ncont []) with 0.
      split; [rewrite Z.add_0_r; exact E|]. f_equal. f_equal; [f_equal|]; lia.
    + destruct (Z.eqb_spec b 0); [lia|]. rewrite zlen_cons, ncont_cons, cont_bit_ok by lia. fold (bitc b).
      destruct (IH r (i + 1) (c + bitc b)) as [(s1 & s2 & -> & A & H)|(l & H)]; rewrite H.
      * left. exists (b :: s1), s2. split; [reflexivity|]. rewrite zlen_cons, ncont_cons.
        split; [clear -A; lia|]. f_equal. f_equal; [f_equal|]; lia.
      * right. exists l. f_equal. f_equal; [f_equal|]; lia.
Qed.
Lemma strlen_ok a s r : chars s -> Forall byte r -> (a + zlen (s ++ 0 :: r)) mod 8 = 0 ->
  cp_strlen_utf8 a (s ++ 0 :: r) = Ok (zlen s - ncont s).
Proof.
  intros F R A. unfold cp_strlen_utf8.
  destruct (sl_head_ok a s F r 0 0) as [(s1 & s2 & -> & A1 & H)|(l & H)]; rewrite H; cbn [bind].
  - apply Forall_app in F. destruct F as [F1 F2].
    destruct (sl_words_ok (length s2) s2 r (0 + zlen s1) (0 + ncont s1) a) as (s3 & s4 & -> & E); auto.
    + clear -A1. lia.
    + rewrite <- app_assoc, zlen_app in A. clear -A. lia.
    + rewrite E. cbn [bind]. apply Forall_app in F2. destruct F2 as [F3 F4].
      rewrite (sl_tail_ok s4 F4). cbn [bind]. rewrite !zlen_app, !ncont_app. f_equal. lia.
  - reflexivity.
Qed.

(** ** shapes of encodings *)
Lemma encode_shape c : scalar c -> c <> 0 ->
  exists h t, encode c = h :: t /\ 1 <= h <= 255 /\ iscont h = false /\ Forall (fun b => iscont b = true) t.
Proof.
  intros [R S] N. unfold encode.
  destruct (Z.ltb_spec c 128); [|destruct (Z.ltb_spec c 2048); [|destruct (Z.ltb_spec c 65536)]];
    (do 2 eexists; split; [reflexivity|]; unfold iscont; split; [lia|]; split; [lia|]; repeat constructor; lia).
Qed.
Lemma utf8_cons c l : utf8 (c :: l) = encode c ++ utf8 l. Proof. reflexivity. Qed.
Lemma utf8_app l m : utf8 (l ++ m) = utf8 l ++ utf8 m.
Proof. unfold utf8. apply flat_map_app. Qed.
Lemma iscont_byte b : iscont b = true -> 1 <= b <= 255. Proof. unfold iscont. lia. Qed.
Lemma utf8_chars cps : text cps -> chars (utf8 cps).
Proof.
  induction 1 as [|c l [S N] F IH]; [constructor|]. rewrite utf8_cons. apply Forall_app. split; [|exact IH].
  destruct (encode_shape c S N) as (h & t & -> & H & _ & T). constructor; [exact H|].
  revert T. apply Forall_impl. apply iscont_byte.
Qed.
Lemma ncont_all t : Forall (fun b => iscont b = true) t -> ncont t = zlen t.
Proof.
  induction 1 as [|b t B F IH]; [reflexivity|]. rewrite ncont_cons, zlen_cons, IH. unfold bitc. rewrite B. lia.
Qed.
Lemma utf8_ncont cps : text cps -> zlen (utf8 cps) - ncont (utf8 cps) = zlen cps.
Proof.
  induction 1 as [|c l [S N] F IH]; [reflexivity|]. rewrite utf8_cons, zlen_app, ncont_app, zlen_cons.
  destruct (encode_shape c S N) as (h & t & -> & H & C & T). rewrite zlen_cons, ncont_cons, (ncont_all t T).
  unfold bitc. rewrite C. lia.
Qed.
Lemma zlen_utf8_ge cps : text cps -> zlen cps <= zlen (utf8 cps).
Proof.
  intros H. pose proof (utf8_ncont cps H). unfold ncont in *. pose proof (zlen_nonneg (filter iscont (utf8 cps))). lia.
Qed.

(** ** offsets *)
Lemma offset_conts t : Forall (fun b => iscont b = true) t -> forall l index i,
  utf8char_offset (t ++ l) index i = utf8char_offset l index (i + zlen t).
Proof.
  induction 1 as [|b t B F IH]; intros l index i; cbn [app]; [f_equal; unfold zlen; cbn; lia|].
  cbn [utf8char_offset]. pose proof (iscont_byte b B). destruct (Z.eqb_spec b 0); [lia|].
  rewrite starts_ok by lia. rewrite B. cbn [negb]. rewrite IH, zlen_cons. f_equal. lia.
Qed.
Lemma next_conts t : Forall (fun b => iscont b = true) t -> forall l i,
  next_loop (t ++ l) i = next_loop l (i + zlen t).
Proof.
  induction 1 as [|b t B F IH]; intros l i; cbn [app]; [f_equal; unfold zlen; cbn; lia|].
  cbn [next_loop]. pose proof (iscont_byte b B). destruct (Z.eqb_spec b 0); [lia|].
  rewrite starts_ok by lia. rewrite B. cbn [negb]. rewrite IH, zlen_cons. f_equal. lia.
Qed.
Lemma offset_ok cps r : text cps -> forall index i, 0 <= index < two64 ->
  utf8char_offset (utf8 cps ++ 0 :: r) index i = Ok (i + zlen (utf8 (firstn (Z.to_nat index) cps))).
Proof.
  induction 1 as [|c l [S N] F IH]; intros index i Hi.
  - rewrite firstn_nil. cbn. unfold zlen. cbn. f_equal. lia.
  - rewrite utf8_cons. destruct (encode_shape c S N) as (h & t & E & H & C & T). rewrite E. cbn [app utf8char_offset].
    destruct (Z.eqb_spec h 0); [lia|]. rewrite starts_ok by lia. rewrite C. cbn [negb].
    destruct (Z.eqb_spec index 0) as [->|NI].
    + cbn [firstn utf8 flat_map]. change (Z.to_nat 0) with O. cbn. unfold zlen. cbn. f_equal. lia.
    + rewrite <- app_assoc. rewrite offset_conts by exact T.
      replace (u64 (index - 1)) with (index - 1) by (unfold u64, two64 in *; lia).
      rewrite IH by lia. replace (Z.to_nat index) with (Datatypes.S (Z.to_nat (index - 1))) by lia.
      cbn [firstn]. rewrite utf8_cons, E, zlen_app, zlen_cons. f_equal. lia.
Qed.
Lemma skipn_zlen {A} (l m : list A) n : n = zlen l -> skipn (Z.to_nat n) (l ++ m) = m.
Proof. intros ->. unfold zlen. rewrite Nat2Z.id. rewrite skipn_app, skipn_all, Nat.sub_diag. reflexivity. Qed.
Lemma zsub_mid (l m r : list Z) i n : i = zlen l -> n = zlen m -> zsub (l ++ m ++ r) i n = m.
Proof.
  intros -> ->. unfold zsub. rewrite skipn_zlen by reflexivity. unfold zlen. rewrite Nat2Z.id.
  rewrite firstn_app, firstn_all, Nat.sub_diag. cbn. apply app_nil_r.
Qed.
Lemma nth_split3 (cps : list Z) k : (k < length cps)%nat ->
  cps = firstn k cps ++ nth k cps 0 :: skipn (S k) cps.
Proof.
  revert k. induction cps as [|c l IH]; intros k H; [cbn in H; lia|]. destruct k; [reflexivity|].
  cbn [firstn nth skipn app]. f_equal. apply IH. cbn in H. lia.
Qed.
Lemma next_ok cps r k : text cps -> (k < length cps)%nat ->
  utf8char_nextchar (utf8 cps ++ 0 :: r) (zlen (utf8 (firstn k cps))) = Ok (zlen (utf8 (firstn (S k) cps))).
Proof.
  intros T L. unfold utf8char_nextchar.
  assert (TN : text (nth k cps 0 :: skipn (S k) cps)).
  { rewrite (nth_split3 cps k L) in T. apply Forall_app in T. apply T. }
  assert (E1 : utf8 cps = utf8 (firstn k cps) ++ encode (nth k cps 0) ++ utf8 (skipn (S k) cps)).
  { rewrite (nth_split3 cps k L) at 1. rewrite utf8_app, utf8_cons. reflexivity. }
  assert (E2 : utf8 (firstn (S k) cps) = utf8 (firstn k cps) ++ encode (nth k cps 0)).
  { rewrite (nth_split3 cps k L) at 1. replace (S k) with (length (firstn k cps) + 1)%nat by (rewrite firstn_length; lia).
    rewrite firstn_app_2. cbn [firstn]. rewrite utf8_app, utf8_cons. cbn. rewrite app_nil_r. reflexivity. }
  rewrite E1, E2. destruct (Forall_inv TN) as [SC NZ]. apply Forall_inv_tail in TN.
  destruct (encode_shape _ SC NZ) as (h & t & E & H & C & TT). rewrite E.
  set (p := utf8 (firstn k cps)). replace (((p ++ (h :: t) ++ utf8 (skipn (S k) cps)) ++ 0 :: r))
    with ((p ++ [h]) ++ t ++ utf8 (skipn (S k) cps) ++ 0 :: r) by (rewrite <- !app_assoc; reflexivity).
  rewrite skipn_zlen by (rewrite zlen_app; unfold zlen; cbn; lia).
  rewrite next_conts by exact TT. rewrite zlen_app, zlen_cons.
  destruct (skipn (S k) cps) as [|c' l']; cbn [utf8 flat_map app next_loop].
  - cbn. f_equal. lia.
  - destruct (Forall_inv TN) as [SC' NZ']. destruct (encode_shape _ SC' NZ') as (h' & t' & E' & H' & C' & _).
    fold (utf8 l'). rewrite E'. cbn [app next_loop]. destruct (Z.eqb_spec h' 0); [lia|]. rewrite starts_ok by lia. rewrite C'. cbn [negb].
    f_equal. lia.
Qed.
