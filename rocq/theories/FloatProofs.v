(** Lemmas about the floating-point model. *)
From Verif Require Import Base WordModel WordProofs NumModel NumProofs PropNum FloatModel.
From Flocq Require Import Core BinarySingleNaN Relative.
From Coq Require Import Reals Lra.
Local Open Scope Z_scope.

(** the double nearest to a real number, ties to even, without bound on the exponent *)
Definition nearest (x : R) : R := round radix2 (FLT_exp (-1074) 53) ZnearestE x.
Definition huge : R := bpow radix2 1024.

Lemma fmt_eq : SpecFloat.fexp 53 1024 = FLT_exp (-1074) 53. Proof. reflexivity. Qed.
Global Instance vexp : Valid_exp (FLT_exp (-1074) 53). Proof. apply FLT_exp_valid. reflexivity. Qed.

Lemma nearest_dbl (d : f64) : nearest (B2R d) = B2R d.
Proof. apply round_generic; [apply valid_rnd_N|apply (generic_format_B2R 53 1024)]. Qed.
Lemma int_format i : Z.abs i <= 2 ^ 53 -> generic_format radix2 (FLT_exp (-1074) 53) (IZR i).
Proof.
  intros H. destruct (Z.eq_dec (Z.abs i) (2 ^ 53)) as [E|E].
  - assert (G : generic_format radix2 (FLT_exp (-1074) 53) (bpow radix2 53)).
    { apply generic_format_bpow. unfold FLT_exp. lia. }
    assert (B : bpow radix2 53 = IZR (2 ^ 53)) by (rewrite <- IZR_Zpower by lia; reflexivity).
    rewrite B in G. destruct (Z.abs_eq_or_opp i) as [A|A]; rewrite A in E.
    + rewrite E. exact G.
    + replace i with (- 2 ^ 53) by lia. rewrite opp_IZR. apply generic_format_opp. exact G.
  - apply generic_format_FLT. exists (Float radix2 i 0); cbn [Fnum Fexp].
    + unfold F2R. cbn. lra.
    + change (radix2 ^ 53) with (2 ^ 53). lia.
    + lia.
Qed.
Lemma nearest_int i : Z.abs i <= 2 ^ 53 -> nearest (IZR i) = IZR i.
Proof. intros H. apply round_generic; [apply valid_rnd_N|apply int_format; auto]. Qed.
Lemma nearest_le x y : (x <= y)%R -> (nearest x <= nearest y)%R.
Proof. intros H. apply round_le; [typeclasses eauto|apply valid_rnd_N|auto]. Qed.
Lemma nearest_0 : nearest 0 = 0%R.
Proof. apply round_0. apply valid_rnd_N. Qed.

Lemma pow_format e : -1074 <= e -> generic_format radix2 (FLT_exp (-1074) 53) (bpow radix2 e).
Proof. intros H. apply generic_format_bpow. unfold FLT_exp. lia. Qed.
Lemma nearest_bound x e : -1074 <= e -> (Rabs x <= bpow radix2 e)%R -> (Rabs (nearest x) <= bpow radix2 e)%R.
Proof. intros He H. apply abs_round_le_generic; [typeclasses eauto|apply valid_rnd_N|apply pow_format; auto|auto]. Qed.

Lemma of_long_ok i : Z.abs i <= 2 ^ 64 -> is_finite (of_long i) = true /\ B2R (of_long i) = nearest (IZR i).
Proof.
  intros H. pose proof (binary_normalize_correct 53 1024 prec_gt prec_lt mode_NE i 0 false) as C. cbv zeta in C.
  change (round_mode mode_NE) with ZnearestE in C. rewrite fmt_eq in C.
  assert (F : F2R (Float radix2 i 0) = IZR i) by (unfold F2R; cbn; lra). rewrite F in C.
  assert (B : (Rabs (nearest (IZR i)) <= bpow radix2 64)%R).
  { apply nearest_bound; [lia|]. rewrite <- abs_IZR. rewrite <- IZR_Zpower by lia. apply IZR_le. exact H. }
  rewrite Rlt_bool_true in C.
  - destruct C as (C1 & C2 & _). split; auto.
  - eapply Rle_lt_trans; [exact B|]. apply bpow_lt. lia.
Qed.
Lemma small_long i : Z.abs i <= 2 ^ 53 -> is_finite (of_long i) = true /\ B2R (of_long i) = IZR i.
Proof. intros H. destruct (of_long_ok i) as [A B]; [lia|]. split; auto. rewrite B. apply nearest_int; auto. Qed.

Lemma nearest_err x : (bpow radix2 (-1022) <= Rabs x)%R -> (Rabs (nearest x - x) <= bpow radix2 (-53) * Rabs x)%R.
Proof.
  intros H. pose proof (relative_error_N_FLT radix2 (-1074) 53 eq_refl (fun n => negb (Z.even n)) x) as E.
  change (-1074 + 53 - 1) with (-1022) in E. specialize (E H). change (- (53) + 1) with (-52) in E.
  replace (/ 2 * bpow radix2 (-52))%R with (bpow radix2 (-53)) in E; [exact E|].
  change (bpow radix2 (-53)) with (bpow radix2 (-1 + -52)). rewrite bpow_plus. change (bpow radix2 (-1)) with (/ IZR 2)%R. reflexivity.
Qed.
Lemma int_err i : (Rabs (nearest (IZR i) - IZR i) <= bpow radix2 (-53) * Rabs (IZR i))%R.
Proof.
  destruct (Z.eq_dec i 0) as [->|N].
  - rewrite nearest_0, Rminus_0_r, Rabs_R0. lra.
  - apply nearest_err. apply Rle_trans with 1%R.
    + change 1%R with (bpow radix2 0). apply bpow_le. lia.
    + rewrite <- abs_IZR. apply IZR_le. lia.
Qed.

(** the four operations *)
Definition rop (op : arith) (x y : R) : R :=
  match op with Add => x + y | Sub => x - y | Mul => x * y | _ => x / y end%R.
Definition four (op : arith) : Prop := In op [Add; Sub; Mul; Div].
Lemma fop_ok op (x y : f64) : four op -> is_finite x = true -> is_finite y = true -> (op = Div -> B2R y <> 0%R) ->
  (Rabs (nearest (rop op (B2R x) (B2R y))) < huge)%R ->
  is_finite (fop op x y) = true /\ B2R (fop op x y) = nearest (rop op (B2R x) (B2R y)).
Proof.
  intros Hop Fx Fy Hd Hb. unfold huge in Hb. destruct Hop as [<-|[<-|[<-|[<-|[]]]]]; cbn [fop rop] in *.
  - pose proof (Bplus_correct 53 1024 prec_gt prec_lt mode_NE x y Fx Fy) as C. change (round_mode mode_NE) with ZnearestE in C. rewrite fmt_eq in C.
    rewrite Rlt_bool_true in C by exact Hb. destruct C as (C1 & C2 & _). auto.
  - pose proof (Bminus_correct 53 1024 prec_gt prec_lt mode_NE x y Fx Fy) as C. change (round_mode mode_NE) with ZnearestE in C. rewrite fmt_eq in C.
    rewrite Rlt_bool_true in C by exact Hb. destruct C as (C1 & C2 & _). auto.
  - pose proof (Bmult_correct 53 1024 prec_gt prec_lt mode_NE x y) as C. change (round_mode mode_NE) with ZnearestE in C. rewrite fmt_eq in C.
    rewrite Rlt_bool_true in C by exact Hb. destruct C as (C1 & C2 & _). rewrite Fx, Fy in C2. auto.
  - pose proof (Bdiv_correct 53 1024 prec_gt prec_lt mode_NE x y (Hd eq_refl)) as C. change (round_mode mode_NE) with ZnearestE in C. rewrite fmt_eq in C.
    rewrite Rlt_bool_true in C by exact Hb. destruct C as (C1 & C2 & _). rewrite Fx in C2. auto.
Qed.
Lemma inf_sf (z : f64) s : B2SF z = binary_overflow 53 1024 mode_NE s -> z = B754_infinity s.
Proof. destruct z; cbn; intros E; try discriminate. congruence. Qed.
Lemma fop_overflow op (x y : f64) : four op -> is_finite x = true -> is_finite y = true -> (op = Div -> B2R y <> 0%R) ->
  (huge <= Rabs (nearest (rop op (B2R x) (B2R y))))%R -> exists s, fop op x y = B754_infinity s.
Proof.
  intros Hop Fx Fy Hd Hb. unfold huge in Hb. destruct Hop as [<-|[<-|[<-|[<-|[]]]]]; cbn [fop rop] in *.
  - pose proof (Bplus_correct 53 1024 prec_gt prec_lt mode_NE x y Fx Fy) as C. change (round_mode mode_NE) with ZnearestE in C. rewrite fmt_eq in C.
    rewrite Rlt_bool_false in C by exact Hb. destruct C as (C1 & C2). eexists. apply inf_sf. exact C1.
  - pose proof (Bminus_correct 53 1024 prec_gt prec_lt mode_NE x y Fx Fy) as C. change (round_mode mode_NE) with ZnearestE in C. rewrite fmt_eq in C.
    rewrite Rlt_bool_false in C by exact Hb. destruct C as (C1 & C2). eexists. apply inf_sf. exact C1.
  - pose proof (Bmult_correct 53 1024 prec_gt prec_lt mode_NE x y) as C. change (round_mode mode_NE) with ZnearestE in C. rewrite fmt_eq in C.
    rewrite Rlt_bool_false in C by exact Hb. eexists. apply inf_sf. exact C.
  - pose proof (Bdiv_correct 53 1024 prec_gt prec_lt mode_NE x y (Hd eq_refl)) as C. change (round_mode mode_NE) with ZnearestE in C. rewrite fmt_eq in C.
    rewrite Rlt_bool_false in C by exact Hb. eexists. apply inf_sf. exact C.
Qed.

(** floor and truncation *)
Lemma floorZ_ok d : is_finite d = true -> floorZ d = Zfloor (B2R d).
Proof.
  destruct d as [s|s| |s m e H]; try discriminate; intros _.
  - cbn. symmetry. apply (Zfloor_IZR 0).
  - cbn [floorZ B2R]. unfold F2R. cbn [Fnum Fexp]. replace (cond_Zopp s (Z.pos m)) with (if s then Z.neg m else Z.pos m) by (destruct s; reflexivity).
    set (k := if s then Z.neg m else Z.pos m).
    destruct (0 <=? e) eqn:E.
    + rewrite <- IZR_Zpower by lia. rewrite <- mult_IZR, Zfloor_IZR. reflexivity.
    + replace e with (- - e) at 2 by lia. rewrite bpow_opp, <- IZR_Zpower by lia. change (IZR k * / IZR (radix2 ^ - e))%R with (IZR k / IZR (radix2 ^ - e))%R.
      rewrite Zfloor_div; [reflexivity|]. change (radix_val radix2) with 2. pose proof (Z.pow_pos_nonneg 2 (- e)). lia.
Qed.
Lemma trunc_ok (d : f64) : Btrunc d = Ztrunc (B2R d).
Proof.
  pose proof (Btrunc_correct 53 1024 prec_lt d) as C. rewrite round_FIX_IZR in C. apply eq_IZR. exact C.
Qed.
