(** Lemmas about tagged words. *)
From Coq Require Import ZifyBool.
From Verif Require Import Base WordModel.
Ltac Zify.zify_post_hook ::= Z.div_mod_to_equations.

Ltac unfold_consts := unfold two32, two62, two63, two64 in *.

(** representable integers: [-2^62, 2^62) *)
Definition repb (i : Z) : bool := (- two62 <=? i) && (i <? two62).

Lemma repb_spec i : repb i = true <-> - two62 <= i < two62.
Proof. unfold repb. lia. Qed.

Lemma PN_NUM_eq i : PN_NUM i = (2 * i + 1) mod two64.
Proof. unfold PN_NUM, u64; unfold_consts. lia. Qed.

Lemma PN_INT_eq x : PN_INT x = s64 x / 2.
Proof.
  unfold PN_INT. rewrite Z.shiftr_div_pow2 by lia. change (2 ^ 1) with 2.
  f_equal. unfold s64, u64; unfold_consts. lia.
Qed.

Lemma PN_NUM_range i : 0 <= PN_NUM i < two64.
Proof. rewrite PN_NUM_eq. unfold_consts. lia. Qed.

Lemma PN_INT_NUM_wrap i : PN_INT (PN_NUM i) = (i + two62) mod two63 - two62.
Proof. rewrite PN_INT_eq, PN_NUM_eq. unfold s64; unfold_consts. lia. Qed.

Lemma PN_INT_NUM i : repb i = true -> PN_INT (PN_NUM i) = i.
Proof. rewrite repb_spec, PN_INT_NUM_wrap. unfold_consts. lia. Qed.

Lemma PN_INT_rep w : repb (PN_INT w) = true.
Proof. rewrite repb_spec, PN_INT_eq. unfold s64; unfold_consts. lia. Qed.

Lemma PN_IS_INT_odd v : PN_IS_INT v = Z.odd v.
Proof.
  unfold PN_IS_INT. change 1 with (Z.ones 1). rewrite Z.land_ones by lia.
  change (2 ^ 1) with 2. rewrite Zmod_odd. destruct (Z.odd v); reflexivity.
Qed.

Lemma PN_NUM_is_int i : PN_IS_INT (PN_NUM i) = true.
Proof.
  unfold PN_IS_INT. change 1 with (Z.ones 1). rewrite Z.land_ones by lia.
  change (2 ^ 1) with 2. rewrite PN_NUM_eq. unfold_consts. lia.
Qed.

Lemma PN_NUM_INT w : 0 <= w < two64 -> PN_IS_INT w = true -> PN_NUM (PN_INT w) = w.
Proof.
  unfold PN_IS_INT. change 1 with (Z.ones 1). rewrite Z.land_ones by lia.
  change (2 ^ 1) with 2. intros Hr Ho. rewrite PN_NUM_eq, PN_INT_eq.
  unfold s64; unfold_consts. lia.
Qed.

Lemma PN_NUM_inj i j : repb i = true -> repb j = true -> PN_NUM i = PN_NUM j -> i = j.
Proof.
  intros Hi Hj H. rewrite <- (PN_INT_NUM i Hi), <- (PN_INT_NUM j Hj), H. reflexivity.
Qed.

Lemma land_pow2 v k : 0 <= k -> Z.land v (2 ^ k) = if Z.testbit v k then 2 ^ k else 0.
Proof.
  intros Hk. apply Z.bits_inj'. intros n Hn. rewrite Z.land_spec.
  destruct (Z.eq_dec n k) as [->|Hne].
  - rewrite Z.pow2_bits_true by lia. rewrite andb_true_r.
    destruct (Z.testbit v k) eqn:E; [symmetry; apply Z.pow2_bits_true; lia | symmetry; apply Z.bits_0].
  - rewrite Z.pow2_bits_false by lia. rewrite andb_false_r.
    destruct (Z.testbit v k); [symmetry; apply Z.pow2_bits_false; lia | symmetry; apply Z.bits_0].
Qed.

Lemma testbit_mod v k : 0 <= k -> Z.testbit v k = ((v / 2 ^ k) mod 2 =? 1).
Proof.
  intros Hk. pose proof (Z.testbit_spec' v k Hk) as H.
  destruct (Z.testbit v k); cbn in H; lia.
Qed.

Lemma PN_IS_BOOL_eq v : PN_IS_BOOL v = (2 <=? v mod 4).
Proof.
  unfold PN_IS_BOOL. change 2 with (2 ^ 1) at 1. rewrite land_pow2 by lia.
  rewrite testbit_mod by lia. change (2 ^ 1) with 2.
  destruct ((v / 2) mod 2 =? 1) eqn:E; cbn [Z.eqb negb]; lia.
Qed.

Lemma PN_IS_INT_eq v : PN_IS_INT v = (v mod 2 =? 1).
Proof.
  unfold PN_IS_INT. change 1 with (Z.ones 1) at 1. rewrite Z.land_ones by lia.
  change (2 ^ 1) with 2. lia.
Qed.

Lemma land_mask8 v : 0 <= v < two64 -> Z.land v (u64 (-8)) = 8 * (v / 8).
Proof.
  intros Hv. replace (u64 (-8)) with (Z.ldiff (Z.ones 64) (Z.ones 3)) by reflexivity.
  replace (Z.land v (Z.ldiff (Z.ones 64) (Z.ones 3))) with (Z.ldiff (Z.land v (Z.ones 64)) (Z.ones 3)).
  - rewrite Z.land_ones by lia. rewrite Z.ldiff_ones_r by lia.
    rewrite Z.shiftl_mul_pow2, Z.shiftr_div_pow2 by lia.
    change (2 ^ 64) with two64. change (2 ^ 3) with 8. rewrite Z.mod_small by lia. lia.
  - apply Z.bits_inj'. intros n Hn. rewrite !Z.ldiff_spec, !Z.land_spec, Z.ldiff_spec.
    rewrite andb_assoc. reflexivity.
Qed.

Lemma PN_IS_PTR_eq v : 0 <= v < two64 -> PN_IS_PTR v = (v mod 2 =? 0) && (8 <=? v).
Proof.
  intros Hv. unfold PN_IS_PTR. rewrite PN_IS_INT_eq, land_mask8 by assumption. lia.
Qed.
