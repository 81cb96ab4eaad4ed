(** What the inline integer arithmetic of the generated code computes. *)
From Coq Require Import ZifyBool.
From Verif Require Import Base Arr WordModel WordProofs NumModel NumProofs CompileModel X86Model JitSem.
Ltac Zify.zify_post_hook ::= Z.div_mod_to_equations.

Lemma s64_NUM i : - two62 <= i < two62 -> s64 (PN_NUM i) = 2 * i + 1.
Proof. intros H. rewrite PN_NUM_eq. unfold s64, two62, two63, two64 in *. lia. Qed.
Lemma odd_NUM i : Z.odd (PN_NUM i) = true.
Proof. rewrite <- PN_IS_INT_odd. apply PN_NUM_is_int. Qed.

Lemma jmath_add i j : jmath O_ADD (PN_NUM i) (PN_NUM j) = Some (PN_NUM (i + j)).
Proof. unfold jmath. f_equal. rewrite !PN_NUM_eq. unfold u64, two64. lia. Qed.
Lemma jmath_sub i j : - two62 <= i < two62 -> - two62 <= j < two62 ->
  jmath O_SUB (PN_NUM i) (PN_NUM j) = if repb (i - j) then Some (PN_NUM (i - j)) else None.
Proof.
  intros Hi Hj. unfold jmath. rewrite !s64_NUM by assumption.
  assert (E : ovf (2 * i + 1 - (2 * j + 1)) = negb (repb (i - j))).
  { unfold ovf, in_long, repb, two62, two63. lia. }
  rewrite E. destruct (repb (i - j)); cbn [negb]; [|reflexivity]. f_equal.
  rewrite !PN_NUM_eq. unfold u64, two64. lia.
Qed.
Lemma jmath_mult i j : - two62 <= i < two62 -> - two62 <= j < two62 ->
  jmath O_MULT (PN_NUM i) (PN_NUM j) = if repb (i * j) then Some (PN_NUM (i * j)) else None.
Proof.
  intros Hi Hj. unfold jmath. rewrite s64_NUM by assumption.
  replace (s64 (u64 (PN_NUM i - 1))) with (2 * i).
  2:{ rewrite PN_NUM_eq. unfold s64, u64, two62, two63, two64 in *. lia. }
  replace (s64 (u64 ((2 * j + 1) / 2))) with j.
  2:{ replace ((2 * j + 1) / 2) with j by lia. unfold s64, u64, two62, two63, two64 in *. lia. }
  replace (2 * i * j) with (2 * (i * j)) by lia. generalize (i * j). intros p.
  assert (E : ovf (2 * p) = negb (repb p)) by (unfold ovf, in_long, repb, two62, two63; lia).
  rewrite E. destruct (repb p); cbn [negb]; [|reflexivity]. f_equal.
  rewrite !PN_NUM_eq. unfold u64, two64. lia.
Qed.
Lemma jcmp_num o i j : - two62 <= i < two62 -> - two62 <= j < two62 ->
  jcmp o (PN_NUM i) (PN_NUM j) =
  match o with O_LT => i <? j | O_LTE => i <=? j | O_GT => j <? i | _ => j <=? i end.
Proof. intros Hi Hj. unfold jcmp. rewrite !s64_NUM by assumption. destruct o; lia. Qed.
Lemma jbitn_num i : u64 (two64 - 1 - PN_NUM i + 1) = PN_NUM (- i - 1).
Proof. rewrite !PN_NUM_eq. unfold u64, two64. lia. Qed.
(** the low 31 bits of an integer, as a signed number *)
Definition low31 (i : Z) : Z := (i + 1073741824) mod 2147483648 - 1073741824.
Lemma s32_NUM i : s32 (PN_NUM i) / 2 = low31 i.
Proof. rewrite PN_NUM_eq. unfold s32, two32, two64, low31. lia. Qed.
Lemma low31_range i : -1073741824 <= low31 i < 1073741824.
Proof. unfold low31. lia. Qed.
Lemma low31_id i : -1073741824 <= i < 1073741824 -> low31 i = i.
Proof. unfold low31. lia. Qed.
Lemma jdiv_num rem i j :
  jdiv rem (PN_NUM i) (PN_NUM j) =
  if low31 j =? 0 then UB
  else Ok (PN_NUM ((if rem then Z.rem (low31 i) (low31 j) else Z.quot (low31 i) (low31 j)) mod 2147483648)).
Proof.
  unfold jdiv. rewrite !s32_NUM. pose proof (low31_range i) as Hi. pose proof (low31_range j) as Hj.
  rewrite u32_u32, !s32_u32 by lia.
  destruct (low31 j =? 0); [reflexivity|]. f_equal.
  set (q := if rem then _ else _). clearbody q. rewrite PN_NUM_eq. unfold u32, two32, two64. lia.
Qed.
Lemma jtest_ok x : 0 <= x < two64 -> jtest x = negb (x =? PN_FALSE) && negb (x =? PN_NIL).
Proof. intros H. unfold jtest, u64, PN_FALSE, PN_NIL, two64 in *. lia. Qed.
