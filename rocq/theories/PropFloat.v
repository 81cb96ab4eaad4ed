(** C70: arithmetic with floating-point numbers; C71: powers. *)
From Coq Require Import Reals Lra.
From Flocq Require Import Core BinarySingleNaN Relative.
From Verif Require Import Base WordModel WordProofs NumModel NumProofs PropNum FloatModel FloatProofs.
Local Open Scope Z_scope.

(** ** Specification *)
(** the value of a number as a real; [nearest] is rounding to the nearest double *)
Definition val (n : num) : R := match n with NI i => IZR i | ND d => B2R d end.
Definition finite (n : num) : Prop := match n with NI i => fits i | ND d => is_finite d = true end.
Definition is_dbl (n : num) : bool := match n with NI _ => false | ND _ => true end.
(** an integer that every double computation can hold exactly *)
Definition small (n : num) : Prop := match n with NI i => Z.abs i <= 2 ^ 53 | ND _ => True end.
Definition zop4 (op : arith) (i j : Z) : Z := match op with Add => i + j | Sub => i - j | _ => i * j end.

Lemma to_dbl_ok n : finite n -> is_finite (PN_DBL n) = true /\ B2R (PN_DBL n) = nearest (val n).
Proof.
  destruct n as [i|d]; cbn [finite PN_DBL val]; intros H.
  - apply of_long_ok. unfold fits in H. lia.
  - split; auto. symmetry. apply nearest_dbl.
Qed.
Lemma small_val n : small n -> nearest (val n) = val n.
Proof. destruct n as [i|d]; cbn [small val]; intros H; [apply nearest_int; auto|apply nearest_dbl]. Qed.

(** ** Arithmetic *)
Lemma vm_dbl op a b : four op -> is_dbl a || is_dbl b = true -> vm_num op a b = Ok (ND (fop op (PN_DBL a) (PN_DBL b))).
Proof.
  intros Hop H. destruct a as [i|x], b as [j|y]; try discriminate;
    destruct Hop as [<-|[<-|[<-|[<-|[]]]]]; reflexivity.
Qed.
(** With a double among the operands, an operator gives the double nearest to the exact
    result of the operation on the operands converted to double, *)
Theorem C70_arithmetic : forall op a b, In op [Add; Sub; Mul; Div] -> is_dbl a || is_dbl b = true ->
  finite a -> finite b -> (op = Div -> nearest (val b) <> 0%R) ->
  let exact := rop op (nearest (val a)) (nearest (val b)) in
  ((Rabs (nearest exact) < bpow radix2 1024)%R ->
     exists d, vm_num op a b = Ok (ND d) /\ is_finite d = true /\ B2R d = nearest exact) /\
  ((bpow radix2 1024 <= Rabs (nearest exact))%R ->
     exists s, vm_num op a b = Ok (ND (B754_infinity s))).
Proof.
  intros op a b Hop Hd Fa Fb Hz exact. subst exact. rewrite vm_dbl by auto.
  destruct (to_dbl_ok a Fa) as [A1 A2]. destruct (to_dbl_ok b Fb) as [B1 B2]. rewrite <- A2, <- B2 in *. split; intros H.
  - eexists. split; [reflexivity|]. apply fop_ok; auto.
  - destruct (fop_overflow op _ _ Hop A1 B1 Hz H) as [s E]. exists s. rewrite E. reflexivity.
Qed.
(** which is the double nearest to the exact result when an integer operand has at most 53
    bits; sending the message gives the same. *)
Theorem C70_correctly_rounded : forall op a b, In op [Add; Sub; Mul; Div] -> is_dbl a || is_dbl b = true ->
  finite a -> finite b -> small a -> small b -> (op = Div -> val b <> 0%R) ->
  (Rabs (nearest (rop op (val a) (val b))) < bpow radix2 1024)%R ->
  exists d, vm_num op a b = Ok (ND d) /\ num_send op a b = Ok (ND d) /\
    is_finite d = true /\ B2R d = nearest (rop op (val a) (val b)).
Proof.
  intros op a b Hop Hd Fa Fb Sa Sb Hz H.
  destruct (C70_arithmetic op a b Hop Hd Fa Fb) as [C _].
  - intros E. rewrite small_val by auto. auto.
  - cbv zeta in C. rewrite !small_val in C by auto. destruct (C H) as (d & E & F & V). exists d.
    split; auto. split; auto. destruct a, b; try discriminate; exact E.
Qed.
(** Two integers whose sum, difference or product does not fit give a double that is
    within one part in 2^51 of the exact result. *)
Lemma half_pos : (0 < bpow radix2 (-53))%R. Proof. apply bpow_gt_0. Qed.
Lemma u_small : (bpow radix2 (-53) <= / 1000)%R.
Proof. apply Rle_trans with (bpow radix2 (-10)); [apply bpow_le; lia|]. change (bpow radix2 (-10)) with (/ 1024)%R. lra. Qed.
Lemma p51 : bpow radix2 (-51) = (4 * bpow radix2 (-53))%R.
Proof. change (-51) with (2 + -53). rewrite bpow_plus. change (bpow radix2 2) with 4%R. reflexivity. Qed.
Lemma err_fact (x y u : R) : (0 <= u -> Rabs (y - x) <= u * Rabs x -> exists e, y = x * (1 + e) /\ Rabs e <= u)%R.
Proof.
  intros U H. destruct (Req_dec x 0) as [->|N].
  - exists 0%R. rewrite Rabs_R0 in H. split; [|rewrite Rabs_R0; lra].
    rewrite Rmult_0_r, Rminus_0_r in H. pose proof (Rabs_pos y). assert (E : Rabs y = 0%R) by lra.
    destruct (Req_dec y 0) as [->|Ny]; [ring|]. apply Rabs_no_R0 in Ny. contradiction.
  - exists ((y - x) / x)%R. split; [field; auto|]. unfold Rdiv. rewrite Rabs_mult, Rabs_inv.
    apply Rabs_pos_lt in N. apply Rmult_le_reg_r with (Rabs x); auto. rewrite Rmult_assoc, Rinv_l by lra. lra.
Qed.
Lemma abs_le_bounds e u : (Rabs e <= u -> - u <= e <= u)%R.
Proof. intros H. unfold Rabs in H. destruct (Rcase_abs e); lra. Qed.

Theorem C70_promotion : forall op i j, In op [Add; Sub; Mul] -> fits i -> fits j -> ~ fits (zop4 op i j) ->
  exists d, vm_num op (NI i) (NI j) = Ok (ND d) /\ is_finite d = true /\
    (Rabs (B2R d - IZR (zop4 op i j)) <= bpow radix2 (-51) * Rabs (IZR (zop4 op i j)))%R.
Proof.
  intros op i j Hop Hi Hj Hn.
  assert (E : vm_num op (NI i) (NI j) = Ok (ND (fop op (of_long i) (of_long j)))).
  { destruct (C04_vm_add_sub_mul_exact_or_promote i j Hi Hj) as (_ & A & _ & S & _ & M). unfold vm_num.
    destruct Hop as [<-|[<-|[<-|[]]]]; cbn [zop4] in Hn; rewrite ?A, ?S, ?M by auto; reflexivity. }
  rewrite E. clear E. eexists. split; [reflexivity|].
  destruct (of_long_ok i) as [A1 A2]; [unfold fits in Hi; lia|]. destruct (of_long_ok j) as [B1 B2]; [unfold fits in Hj; lia|].
  pose proof half_pos as U0. pose proof u_small as U1. set (u := bpow radix2 (-53)) in *.
  (* the converted operands *)
  destruct (err_fact (IZR i) (nearest (IZR i)) u) as (e1 & E1 & L1); [lra|apply int_err|].
  destruct (err_fact (IZR j) (nearest (IZR j)) u) as (e2 & E2 & L2); [lra|apply int_err|].
  apply abs_le_bounds in L1. apply abs_le_bounds in L2.
  set (s := IZR (zop4 op i j)).
  assert (Hs : exists e, rop op (nearest (IZR i)) (nearest (IZR j)) = (s * (1 + e))%R /\ (- (2 * u + u * u) <= e <= 2 * u + u * u)%R).
  { destruct Hop as [<-|[<-|[<-|[]]]]; cbn [rop zop4] in *; subst s.
    - rewrite plus_IZR in *. unfold fits in *. set (x := IZR i) in *. set (y := IZR j) in *.
      assert (SG : (0 <= x /\ 0 <= y /\ 0 < x + y)%R \/ (x <= 0 /\ y <= 0 /\ x + y < 0)%R).
      { subst x y. rewrite <- plus_IZR. destruct (Z_le_gt_dec (2 ^ 62) (i + j)).
        - left. split; [apply IZR_le; lia|split; [apply IZR_le; lia|apply IZR_lt; lia]].
        - right. split; [apply IZR_le; lia|split; [apply IZR_le; lia|apply IZR_lt; lia]]. }
      exists ((x * e1 + y * e2) / (x + y))%R. split; [rewrite E1, E2; field; lra|].
      assert (B : (- u <= (x * e1 + y * e2) / (x + y) <= u)%R).
      { destruct SG as [(X & Y & XY)|(X & Y & XY)].
        - split; [apply Rmult_le_reg_r with (x + y)%R; auto; unfold Rdiv; rewrite Rmult_assoc, Rinv_l, Rmult_1_r by lra; nra|].
          apply Rmult_le_reg_r with (x + y)%R; auto; unfold Rdiv; rewrite Rmult_assoc, Rinv_l, Rmult_1_r by lra; nra.
        - replace ((x * e1 + y * e2) / (x + y))%R with ((- x * e1 + - y * e2) / (- x + - y))%R by (field; lra).
          split; [apply Rmult_le_reg_r with (- x + - y)%R; [lra|]; unfold Rdiv; rewrite Rmult_assoc, Rinv_l, Rmult_1_r by lra; nra|].
          apply Rmult_le_reg_r with (- x + - y)%R; [lra|]; unfold Rdiv; rewrite Rmult_assoc, Rinv_l, Rmult_1_r by lra; nra. }
      nra.
    - rewrite minus_IZR in *. unfold fits in *. set (x := IZR i) in *. set (y := IZR j) in *.
      assert (SG : (0 <= x /\ y <= 0 /\ 0 < x - y)%R \/ (x <= 0 /\ 0 <= y /\ x - y < 0)%R).
      { subst x y. rewrite <- minus_IZR. destruct (Z_le_gt_dec (2 ^ 62) (i - j)).
        - left. split; [apply IZR_le; lia|split; [apply IZR_le; lia|apply IZR_lt; lia]].
        - right. split; [apply IZR_le; lia|split; [apply IZR_le; lia|apply IZR_lt; lia]]. }
      exists ((x * e1 - y * e2) / (x - y))%R. split; [rewrite E1, E2; field; lra|].
      assert (B : (- u <= (x * e1 - y * e2) / (x - y) <= u)%R).
      { destruct SG as [(X & Y & XY)|(X & Y & XY)].
        - split; [apply Rmult_le_reg_r with (x - y)%R; auto; unfold Rdiv; rewrite Rmult_assoc, Rinv_l, Rmult_1_r by lra; nra|].
          apply Rmult_le_reg_r with (x - y)%R; auto; unfold Rdiv; rewrite Rmult_assoc, Rinv_l, Rmult_1_r by lra; nra.
        - replace ((x * e1 - y * e2) / (x - y))%R with ((- x * e1 + y * e2) / (- x + y))%R by (field; lra).
          split; [apply Rmult_le_reg_r with (- x + y)%R; [lra|]; unfold Rdiv; rewrite Rmult_assoc, Rinv_l, Rmult_1_r by lra; nra|].
          apply Rmult_le_reg_r with (- x + y)%R; [lra|]; unfold Rdiv; rewrite Rmult_assoc, Rinv_l, Rmult_1_r by lra; nra. }
      nra.
    - rewrite mult_IZR in *. exists (e1 + e2 + e1 * e2)%R. split; [rewrite E1, E2; ring|]. nra. }
  destruct Hs as (e & Es & Le).
  assert (S1 : (1 <= Rabs s)%R).
  { subst s. rewrite <- abs_IZR. apply IZR_le. unfold fits in Hn. lia. }
  assert (S2 : (Rabs s <= bpow radix2 124)%R).
  { subst s. rewrite <- abs_IZR, <- IZR_Zpower by lia. apply IZR_le. change (radix2 ^ 124) with (2 ^ 124). unfold fits in Hi, Hj.
    destruct Hop as [<-|[<-|[<-|[]]]]; cbn [zop4]; try lia. rewrite Z.abs_mul. nia. }
  assert (R1 : (Rabs (rop op (nearest (IZR i)) (nearest (IZR j))) <= bpow radix2 125)%R).
  { rewrite Es, Rabs_mult. assert (Rabs (1 + e) <= 2)%R by (rewrite Rabs_pos_eq; nra).
    change 125 with (124 + 1). rewrite bpow_plus. change (bpow radix2 1) with 2%R.
    apply Rmult_le_compat; auto; apply Rabs_pos. }
  destruct (fop_ok op (of_long i) (of_long j)) as [F1 F2]; auto.
  - destruct Hop as [<-|[<-|[<-|[]]]]; unfold four; cbn; auto.
  - destruct Hop as [<-|[<-|[<-|[]]]]; discriminate.
  - rewrite A2, B2. apply Rle_lt_trans with (bpow radix2 125); [apply nearest_bound; [lia|exact R1]|apply bpow_lt; lia].
  - split; auto. rewrite F2, A2, B2. clear F1 F2.
    destruct (err_fact (s * (1 + e)) (nearest (s * (1 + e))) u) as (e3 & E3 & L3); [lra| |].
    + apply nearest_err. rewrite Rabs_mult. assert (/ 2 <= Rabs (1 + e))%R by (rewrite Rabs_pos_eq; nra).
      apply Rle_trans with (/ 2)%R; [|nra]. change (/ 2)%R with (bpow radix2 (-1)). apply bpow_le. lia.
    + apply abs_le_bounds in L3. rewrite Es, E3, p51. fold u.
      replace (s * (1 + e) * (1 + e3) - s)%R with (s * (e + e3 + e * e3))%R by ring. rewrite Rabs_mult, Rmult_comm.
      apply Rmult_le_compat_r; [apply Rabs_pos|]. apply Rabs_le. nra.
Qed.

(** ** Comparison *)
Lemma BOOL_true b : PN_BOOL b = PN_TRUE <-> b = true.
Proof. destruct b; cbn; split; intros H; try reflexivity; discriminate. Qed.
(** With a double among the operands, the four orders agree with the order of the values
    when an integer operand has at most 53 bits, *)
Theorem C70_order : forall a b, is_dbl a || is_dbl b = true -> finite a -> finite b -> small a -> small b ->
  (vm_lt Lt a b = PN_TRUE <-> (val a < val b)%R) /\ (vm_lt Lte a b = PN_TRUE <-> (val a <= val b)%R) /\
  (vm_lt Gt a b = PN_TRUE <-> (val a > val b)%R) /\ (vm_lt Gte a b = PN_TRUE <-> (val a >= val b)%R).
Proof.
  intros a b Hd Fa Fb Sa Sb. destruct (to_dbl_ok a Fa) as [A1 A2]. destruct (to_dbl_ok b Fb) as [B1 B2].
  rewrite small_val in A2, B2 by auto.
  assert (E : forall c, vm_lt c a b = PN_BOOL (match c with
     | Lt => Bltb (PN_DBL a) (PN_DBL b) | Lte => Bleb (PN_DBL a) (PN_DBL b)
     | Gt => Bltb (PN_DBL b) (PN_DBL a) | Gte => Bleb (PN_DBL b) (PN_DBL a) end)).
  { intros c. destruct a, b; try discriminate; reflexivity. }
  rewrite !E, !BOOL_true, !Bltb_correct, !Bleb_correct by auto. rewrite A2, B2.
  repeat split; intros H.
  - destruct (Rlt_bool_spec (val a) (val b)); [auto|discriminate].
  - apply Rlt_bool_true; auto.
  - destruct (Rle_bool_spec (val a) (val b)); [auto|discriminate].
  - apply Rle_bool_true; auto.
  - destruct (Rlt_bool_spec (val b) (val a)); [auto|discriminate].
  - apply Rlt_bool_true; auto.
  - destruct (Rle_bool_spec (val b) (val a)); [lra|discriminate].
  - apply Rle_bool_true; lra.
Qed.
(** every comparison with a NaN is false, *)
Theorem C70_nan : forall c a b, (a = ND B754_nan \/ b = ND B754_nan) -> vm_lt c a b = PN_FALSE.
Proof.
  assert (L : forall x : f64, Bltb x B754_nan = false /\ Bleb x B754_nan = false /\
                              Bltb B754_nan x = false /\ Bleb B754_nan x = false).
  { intros x. destruct x as [[]|[]| |[] m e H]; repeat split; reflexivity. }
  intros c a b [-> | ->].
  - destruct b as [j|y]; cbn [vm_lt PN_DBL].
    + destruct (L (of_long j)) as (H1 & H2 & H3 & H4). destruct c; rewrite ?H1, ?H2, ?H3, ?H4; reflexivity.
    + destruct (L y) as (H1 & H2 & H3 & H4). destruct c; rewrite ?H1, ?H2, ?H3, ?H4; reflexivity.
  - destruct a as [i|x]; cbn [vm_lt PN_DBL].
    + destruct (L (of_long i)) as (H1 & H2 & H3 & H4). destruct c; rewrite ?H1, ?H2, ?H3, ?H4; reflexivity.
    + destruct (L x) as (H1 & H2 & H3 & H4). destruct c; rewrite ?H1, ?H2, ?H3, ?H4; reflexivity.
Qed.
(** and beyond 53 bits the order can be wrong: 2^53 + 1 <= 9007199254740992.0 answers true. *)
Theorem C70_order_large_refuted : exists i d, fits i /\ is_finite d = true /\ (B2R d < IZR i)%R /\
  vm_lt Lte (NI i) (ND d) = PN_TRUE.
Proof.
  exists (2 ^ 53 + 1), (of_long (2 ^ 53)). destruct (small_long (2 ^ 53)) as [F V]; [vm_compute; discriminate|].
  split; [unfold fits; lia|]. split; auto. split; [rewrite V; apply IZR_lt; lia|]. vm_compute. reflexivity.
Qed.
(** Two doubles are == when their values are equal, *)
Theorem C70_equal : forall x y, is_finite x = true -> is_finite y = true ->
  (vm_eqn (ND x) (ND y) = PN_TRUE <-> B2R x = B2R y) /\ (vm_neqn (ND x) (ND y) = PN_TRUE <-> B2R x <> B2R y).
Proof.
  intros x y Fx Fy. unfold vm_eqn, vm_neqn. rewrite !BOOL_true, Beqb_correct by auto.
  destruct (Req_bool_spec (B2R x) (B2R y)); cbn [negb]; split; split; intros; auto; try discriminate; contradiction.
Qed.
(** but an integer and a double never are, although neither is less than the other: 1 == 1.0
    is false. *)
Theorem C70_equal_mixed_refuted : forall i, Z.abs i <= 2 ^ 53 ->
  let d := of_long i in val (NI i) = val (ND d) /\
  vm_eqn (NI i) (ND d) = PN_FALSE /\ vm_eqn (ND d) (NI i) = PN_FALSE /\
  vm_neqn (NI i) (ND d) = PN_TRUE /\
  vm_lt Lt (NI i) (ND d) = PN_FALSE /\ vm_lt Gt (NI i) (ND d) = PN_FALSE.
Proof.
  intros i H d. destruct (small_long i H) as [F V]. cbn [val]. fold d in F, V. split; [congruence|].
  repeat split; cbn [vm_lt PN_DBL]; fold d; rewrite Bltb_correct by auto; rewrite Rlt_bool_false by lra; reflexivity.
Qed.
(** The cmp of two doubles is -1, 0 or 1 by their order; with a NaN it is 1 both ways. *)
Theorem C70_cmp : forall x y, is_finite x = true -> is_finite y = true ->
  ((B2R x < B2R y)%R -> dbl_cmp x y = PN_NUM (-1)) /\ (B2R x = B2R y -> dbl_cmp x y = PN_NUM 0) /\
  ((B2R x > B2R y)%R -> dbl_cmp x y = PN_NUM 1).
Proof.
  intros x y Fx Fy. unfold dbl_cmp. rewrite Bltb_correct, Beqb_correct by auto. repeat split; intros H.
  - rewrite Rlt_bool_true by auto. reflexivity.
  - rewrite Rlt_bool_false by lra. rewrite Req_bool_true by auto. reflexivity.
  - rewrite Rlt_bool_false by lra. rewrite Req_bool_false by lra. reflexivity.
Qed.
Theorem C70_cmp_nan_refuted : forall x, dbl_cmp x B754_nan = PN_NUM 1 /\ dbl_cmp B754_nan x = PN_NUM 1.
Proof. intros x. destruct x as [[]|[]| |[] m e H]; split; reflexivity. Qed.

(** ** Conversion, absolute value, square root *)
(** "double" keeps the value of an integer of at most 53 bits *)
Theorem C70_double : forall a, finite a -> exists d, num_double a = ND d /\ is_finite d = true /\
  B2R d = nearest (val a) /\ (small a -> B2R d = val a).
Proof.
  intros a F. destruct (to_dbl_ok a F) as [A B]. exists (PN_DBL a). repeat split; auto. intros S. rewrite B. apply small_val; auto.
Qed.
(** "integer" rounds a non-negative double below 2^62 down, *)
Lemma floor_bounds x n m : (IZR n <= x < IZR m)%R -> n <= Zfloor x < m.
Proof.
  intros [A B]. split.
  - apply Zfloor_lub in A. auto.
  - apply lt_IZR. eapply Rle_lt_trans; [apply Zfloor_lb|auto].
Qed.
Theorem C70_integer : forall d, is_finite d = true -> (0 <= B2R d < IZR (2 ^ 62))%R ->
  num_integer (ND d) = Ok (PN_NUM (Zfloor (B2R d))) /\ fits (Zfloor (B2R d)) /\
  (IZR (Zfloor (B2R d)) <= B2R d < IZR (Zfloor (B2R d)) + 1)%R.
Proof.
  intros d F H. apply floor_bounds in H as B. unfold num_integer, to_ulong. rewrite floorZ_ok, F by auto. cbn [andb].
  replace (0 <=? Zfloor (B2R d)) with true by lia. replace (Zfloor (B2R d) <? 2 ^ 64) with true by lia. cbn [andb bind].
  split; auto. split; [unfold fits; lia|]. split; [apply Zfloor_lb|apply Zfloor_ub].
Qed.
(** but the conversion of a negative double, an infinity or a NaN is undefined, and from
    2^62 the result is another number. *)
Theorem C70_integer_refuted :
  (forall d, is_finite d = true -> (B2R d < 0)%R -> num_integer (ND d) = UB) /\
  (forall d, is_finite d = false -> num_integer (ND d) = UB) /\
  (forall d, is_finite d = true -> (IZR (2 ^ 64) <= B2R d)%R -> num_integer (ND d) = UB) /\
  (forall d, is_finite d = true -> (IZR (2 ^ 62) <= B2R d < IZR (2 ^ 64))%R ->
     exists w, num_integer (ND d) = Ok w /\ PN_INT w <> Zfloor (B2R d)).
Proof.
  split; [|split; [|split]].
  - intros d F H. unfold num_integer, to_ulong. rewrite floorZ_ok, F by auto.
    assert (Zfloor (B2R d) < 0).
    { apply lt_IZR. eapply Rle_lt_trans; [apply Zfloor_lb|auto]. }
    replace (0 <=? Zfloor (B2R d)) with false by lia. reflexivity.
  - intros d F. unfold num_integer, to_ulong. rewrite F. reflexivity.
  - intros d F H. unfold num_integer, to_ulong. rewrite floorZ_ok, F by auto. apply Zfloor_lub in H.
    replace (Zfloor (B2R d) <? 2 ^ 64) with false by lia. rewrite andb_false_r. reflexivity.
  - intros d F H. apply floor_bounds in H. unfold num_integer, to_ulong. rewrite floorZ_ok, F by auto. cbn [andb].
    replace (0 <=? Zfloor (B2R d)) with true by lia. replace (Zfloor (B2R d) <? 2 ^ 64) with true by lia. cbn [andb bind].
    eexists. split; [reflexivity|]. pose proof (PN_INT_rep (PN_NUM (Zfloor (B2R d)))) as R1.
    apply repb_spec in R1. unfold two62 in R1. lia.
Qed.
(** "abs" of a double is its absolute value, of a NaN itself. *)
Theorem C70_abs : forall d, exists r, num_absn (ND d) = ND r /\ is_finite r = is_finite d /\ B2R r = Rabs (B2R d) /\
  (is_nan d = true -> r = d).
Proof.
  intros d. destruct (is_finite d) eqn:F.
  - cbn [num_absn]. rewrite Bltb_correct by auto. cbn [B2R]. eexists. split; [reflexivity|].
    destruct (Rlt_bool_spec (B2R d) 0).
    + rewrite is_finite_Bopp, B2R_Bopp, Rabs_left by auto. repeat split; auto. destruct d; try discriminate F; discriminate.
    + rewrite Rabs_pos_eq by auto. repeat split; auto.
  - destruct d as [s|[]| |s m e H]; try discriminate F; eexists; (split; [reflexivity|]);
      cbn; rewrite ?Rabs_R0; repeat split; intros; try reflexivity; discriminate.
Qed.
(** "sqrt" is the double nearest to the square root, and NaN for a negative number. *)
Theorem C70_sqrt : forall a, finite a ->
  ((0 <= val a)%R -> exists d, num_sqrt a = ND d /\ is_finite d = true /\ B2R d = nearest (sqrt (nearest (val a)))) /\
  ((val a < 0)%R -> nearest (val a) <> 0%R -> num_sqrt a = ND B754_nan).
Proof.
  intros a Fa. destruct (to_dbl_ok a Fa) as [A1 A2]. unfold num_sqrt. rewrite <- A2.
  assert (SG : (0 <= val a)%R -> (0 <= B2R (PN_DBL a))%R).
  { intros H. rewrite A2, <- nearest_0. apply nearest_le; auto. }
  assert (SG2 : (val a < 0)%R -> (B2R (PN_DBL a) <= 0)%R).
  { intros H. rewrite A2, <- nearest_0. apply nearest_le; lra. }
  pose proof (Bsqrt_correct 53 1024 prec_gt prec_lt mode_NE (PN_DBL a)) as (C1 & C2 & _).
  change (round_mode mode_NE) with ZnearestE in C1. rewrite fmt_eq in C1. split.
  - intros H. specialize (SG H). exists (Bsqrt mode_NE (PN_DBL a)). split; auto. split; auto. rewrite C2.
    destruct (PN_DBL a) as [s|s| |[] m e Hb]; try discriminate A1; auto.
    exfalso. assert (L : (B2R (B754_finite true m e Hb : f64) < 0)%R) by (apply F2R_lt_0; reflexivity). lra.
  - intros H N. specialize (SG2 H). destruct (PN_DBL a) as [s|s| |[] m e Hb]; try discriminate A1.
    + contradiction N. reflexivity.
    + reflexivity.
    + exfalso. assert (L : (0 < B2R (B754_finite false m e Hb : f64))%R) by (apply F2R_gt_0; reflexivity). lra.
Qed.

(** ** Remainder *)
(** The operator % with a double computes x - y * q, each operation rounded, for the
    quotient q rounded and cut to an integer, when q fits an int; it is undefined
    otherwise. *)
Theorem C70_rem : forall a b, is_dbl a || is_dbl b = true -> finite a -> finite b -> nearest (val b) <> 0%R ->
  let x := nearest (val a) in let y := nearest (val b) in let q := Ztrunc (nearest (x / y)) in
  (Rabs (nearest (x / y)) < bpow radix2 1024)%R ->
  (~ - 2 ^ 31 <= q < 2 ^ 31 -> vm_num Rem a b = UB) /\
  (- 2 ^ 31 <= q < 2 ^ 31 -> (Rabs (nearest (y * IZR q)) < bpow radix2 1024)%R ->
    (Rabs (nearest (x - nearest (y * IZR q))) < bpow radix2 1024)%R ->
    exists d, vm_num Rem a b = Ok (ND d) /\ is_finite d = true /\ B2R d = nearest (x - nearest (y * IZR q))).
Proof.
  intros a b Hd Fa Fb Ny x y q Hq. destruct (to_dbl_ok a Fa) as [A1 A2]. destruct (to_dbl_ok b Fb) as [B1 B2].
  fold x in A2. fold y in B2, Ny.
  assert (E : vm_num Rem a b = do z <- to_int (Bdiv mode_NE (PN_DBL a) (PN_DBL b));
               Ok (ND (Bminus mode_NE (PN_DBL a) (Bmult mode_NE (PN_DBL b) (of_long z))))).
  { destruct a, b; try discriminate; reflexivity. }
  rewrite E. clear E.
  destruct (fop_ok Div (PN_DBL a) (PN_DBL b)) as [D1 D2]; [unfold four; cbn; auto|auto|auto|intros _; rewrite B2; auto|cbn [rop]; rewrite A2, B2; exact Hq|].
  cbn [fop rop] in D1, D2. rewrite A2, B2 in D2.
  assert (T : Btrunc (Bdiv mode_NE (PN_DBL a) (PN_DBL b)) = q) by (rewrite trunc_ok, D2; reflexivity).
  unfold to_int. rewrite D1, T. cbn [andb]. split.
  - intros N. destruct ((- 2 ^ 31 <=? q) && (q <? 2 ^ 31)) eqn:C; [exfalso; apply N; lia|reflexivity].
  - intros B M1 M2. replace ((- 2 ^ 31 <=? q) && (q <? 2 ^ 31)) with true by lia. cbn [bind].
    destruct (small_long q) as [Q1 Q2]; [lia|].
    destruct (fop_ok Mul (PN_DBL b) (of_long q)) as [F1 F2]; [unfold four; cbn; auto|auto|auto|discriminate|cbn [rop]; rewrite B2, Q2; exact M1|].
    cbn [fop rop] in F1, F2. rewrite B2, Q2 in F2.
    destruct (fop_ok Sub (PN_DBL a) (Bmult mode_NE (PN_DBL b) (of_long q))) as [G1 G2];
      [unfold four; cbn; auto|auto|auto|discriminate|cbn [rop]; rewrite A2, F2; exact M2|].
    cbn [fop rop] in G1, G2. rewrite A2, F2 in G2. eexists. split; [reflexivity|]. split; auto.
Qed.
(** So for whole numbers of at most 31 bits it is the exact remainder, with the sign of the
    dividend. *)
Lemma trunc_quot i j : j <> 0 -> Ztrunc (IZR i / IZR j) = Z.quot i j.
Proof. intros H. apply Ztrunc_div. auto. Qed.
Lemma quot_trunc_nearest i j : j <> 0 -> Z.abs i < 2 ^ 31 -> Z.abs j < 2 ^ 31 ->
  Ztrunc (nearest (IZR i / IZR j)) = Z.quot i j.
Proof.
  assert (P : forall i j, 0 < j < 2 ^ 31 -> 0 <= i < 2 ^ 31 -> Ztrunc (nearest (IZR i / IZR j)) = i / j).
  { intros i' j' Hj Hi. assert (J : (0 < IZR j')%R) by (apply IZR_lt; lia).
    set (v := (IZR i' / IZR j')%R). pose proof (Z.div_mod i' j' ltac:(lia)) as DM. pose proof (Z.mod_pos_bound i' j' ltac:(lia)) as MB.
    set (q := i' / j') in *. assert (Hq : 0 <= q < 2 ^ 31) by (subst q; split; [apply Z.div_pos; lia|apply Z.div_lt_upper_bound; nia]).
    assert (V : (v * IZR j' = IZR i')%R) by (subst v; field; lra).
    assert (L : (IZR q <= v)%R).
    { apply Rmult_le_reg_r with (IZR j'); auto. rewrite V, <- mult_IZR. apply IZR_le. nia. }
    assert (U : (v <= IZR (q + 1) - / IZR j')%R).
    { apply Rmult_le_reg_r with (IZR j'); auto. rewrite V, Rmult_minus_distr_r, Rinv_l, <- mult_IZR, <- minus_IZR by lra. apply IZR_le. nia. }
    rewrite Ztrunc_floor.
    2:{ rewrite <- nearest_0. apply nearest_le. apply Rle_trans with (IZR q); auto. apply IZR_le. lia. }
    apply Zfloor_imp. split.
    - rewrite <- (nearest_int q) by lia. apply nearest_le. auto.
    - destruct (Req_dec v 0) as [Z0|Z0].
      { rewrite Z0, nearest_0. apply IZR_lt. lia. }
      assert (V0 : (0 <= v)%R) by (apply Rle_trans with (IZR q); auto; apply IZR_le; lia).
      assert (I0 : (1 <= IZR i')%R).
      { apply IZR_le. destruct (Z.eq_dec i' 0) as [->|]; [|lia]. exfalso. apply Z0. subst v. unfold Rdiv. ring. }
      assert (VJ : (/ IZR j' <= v)%R).
      { apply Rmult_le_reg_r with (IZR j'); auto. rewrite V, Rinv_l by lra. auto. }
      assert (JB : (IZR j' <= bpow radix2 31)%R) by (rewrite <- IZR_Zpower by lia; apply IZR_le; change (radix2 ^ 31) with (2 ^ 31); lia).
      assert (IJ : (bpow radix2 (-31) <= / IZR j')%R).
      { change (-31) with (- (31)). rewrite bpow_opp. apply Rinv_le; auto. }
      assert (ER : (Rabs (nearest v - v) <= bpow radix2 (-53) * Rabs v)%R).
      { apply nearest_err. rewrite Rabs_pos_eq by auto. apply Rle_trans with (bpow radix2 (-31)); [apply bpow_le; lia|lra]. }
      rewrite (Rabs_pos_eq v) in ER by auto. apply abs_le_bounds in ER.
      assert (SM : (bpow radix2 (-53) * v < / IZR j')%R).
      { apply Rmult_lt_reg_r with (IZR j'); auto. rewrite Rinv_l, Rmult_assoc, V by lra.
        apply Rle_lt_trans with (bpow radix2 (-53) * bpow radix2 31)%R.
        - apply Rmult_le_compat_l; [apply bpow_ge_0|]. rewrite <- IZR_Zpower by lia. apply IZR_le. change (radix2 ^ 31) with (2 ^ 31). lia.
        - rewrite <- bpow_plus. change 1%R with (bpow radix2 0). apply bpow_lt. lia. }
      lra. }
  assert (NO : forall v, nearest (- v) = (- nearest v)%R) by (intros v; apply round_NE_opp).
  intros Hj Hi' Hj'. destruct (Z_le_gt_dec 0 i) as [I0|I0], (Z_le_gt_dec 0 j) as [J0|J0].
  - rewrite P by lia. symmetry. apply Z.quot_div_nonneg; lia.
  - replace (IZR i / IZR j)%R with (- (IZR i / IZR (- j)))%R.
    2:{ rewrite opp_IZR. field. apply IZR_neq. auto. }
    rewrite NO, Ztrunc_opp, P by lia. rewrite <- Z.quot_div_nonneg by lia. rewrite Z.quot_opp_r by lia. lia.
  - replace (IZR i / IZR j)%R with (- (IZR (- i) / IZR j))%R.
    2:{ rewrite opp_IZR. field. apply IZR_neq. auto. }
    rewrite NO, Ztrunc_opp, P by lia. rewrite <- Z.quot_div_nonneg by lia. rewrite Z.quot_opp_l by lia. lia.
  - replace (IZR i / IZR j)%R with (IZR (- i) / IZR (- j))%R.
    2:{ rewrite !opp_IZR. field. apply IZR_neq. auto. }
    rewrite P by lia. rewrite <- Z.quot_div_nonneg by lia. apply Z.quot_opp_opp. auto.
Qed.
Theorem C70_rem_whole : forall a b i j, is_dbl a || is_dbl b = true -> finite a -> finite b ->
  val a = IZR i -> val b = IZR j -> j <> 0 -> Z.abs i < 2 ^ 31 -> Z.abs j < 2 ^ 31 ->
  exists d, vm_num Rem a b = Ok (ND d) /\ is_finite d = true /\ B2R d = IZR (Z.rem i j).
Proof.
  intros a b i j Hd Fa Fb Va Vb Hj Bi Bj.
  assert (Na : nearest (val a) = IZR i) by (rewrite Va; apply nearest_int; lia).
  assert (Nb : nearest (val b) = IZR j) by (rewrite Vb; apply nearest_int; lia).
  pose proof (C70_rem a b Hd Fa Fb) as C. cbv zeta in C. rewrite Na, Nb in C.
  rewrite quot_trunc_nearest in C by auto.
  pose proof (Z.quot_rem i j Hj) as QR. pose proof (Z.rem_bound_abs i j Hj) as RB.
  assert (QB : Z.abs (Z.quot i j) <= Z.abs i) by (rewrite <- Z.quot_abs by auto; apply Z.quot_le_upper_bound; nia).
  assert (JQ : Z.abs (j * Z.quot i j) < 2 ^ 53) by lia.
  rewrite <- mult_IZR, (nearest_int (j * Z.quot i j)), <- minus_IZR in C by lia.
  replace (i - j * Z.quot i j) with (Z.rem i j) in C by lia. rewrite nearest_int in C by lia.
  assert (BND : forall z, Z.abs z <= 2 ^ 53 -> (Rabs (IZR z) < bpow radix2 1024)%R).
  { intros z H. rewrite <- abs_IZR. apply Rle_lt_trans with (bpow radix2 53); [|apply bpow_lt; lia].
    rewrite <- IZR_Zpower by lia. apply IZR_le. exact H. }
  destruct C as [_ C].
  - apply IZR_neq. auto.
  - apply Rle_lt_trans with (bpow radix2 53); [|apply bpow_lt; lia]. apply nearest_bound; [lia|].
    rewrite <- IZR_Zpower by lia. unfold Rdiv. rewrite Rabs_mult, Rabs_inv, <- !abs_IZR.
    assert (J1 : (1 <= IZR (Z.abs j))%R) by (apply IZR_le; lia).
    apply Rle_trans with (IZR (Z.abs i)); [|apply IZR_le; change (radix2 ^ 53) with (2 ^ 53); lia].
    rewrite <- (Rmult_1_r (IZR (Z.abs i))) at 2. apply Rmult_le_compat_l; [apply IZR_le; lia|].
    rewrite <- Rinv_1. apply Rinv_le; lra.
  - destruct C as (d & C1 & C2 & C3); [lia|apply BND; lia|apply BND; lia|]. exists d. auto.
Qed.

(** Examples: 1.5 + 2 = 3.5 (all the hypotheses of the theorems above), -7.0 % 2 = -1.0 *)
Definition d32 : f64 := @B754_finite 53 1024 false 6755399441055744 (-52) eq_refl.
Example C70_example : finite (ND d32) /\ small (NI 2) /\ B2R d32 = 1.5%R /\
  exists d, vm_num Add (ND d32) (NI 2) = Ok (ND d) /\ B2R d = 3.5%R.
Proof.
  split; [reflexivity|]. split; [vm_compute; discriminate|]. split; [unfold d32, B2R, F2R; cbn [Fnum Fexp cond_Zopp]; change (bpow radix2 (-52)) with (/ 4503599627370496)%R; lra|].
  exists (fop Add d32 (of_long 2)). split; [reflexivity|]. rewrite <- SF2R_B2SF.
  replace (B2SF (fop Add d32 (of_long 2))) with (SpecFloat.S754_finite false 7881299347898368 (-51)) by (vm_compute; reflexivity).
  unfold SF2R, F2R; cbn [Fnum Fexp cond_Zopp]; change (bpow radix2 (-51)) with (/ 2251799813685248)%R; lra.
Qed.
Example C70_example_rem : exists d, vm_num Rem (ND (of_long (-7))) (NI 2) = Ok (ND d) /\ is_finite d = true /\ B2R d = IZR (-1).
Proof.
  destruct (small_long (-7)) as [F V]; [lia|].
  apply (C70_rem_whole (ND (of_long (-7))) (NI 2) (-7) 2); auto; try reflexivity; try lia. unfold finite, fits. lia.
Qed.
Example C70_example_promotion : fits (2 ^ 62 - 1) /\ ~ fits (zop4 Add (2 ^ 62 - 1) 1) /\
  exists d, vm_num Add (NI (2 ^ 62 - 1)) (NI 1) = Ok (ND d) /\ B2SF d = B2SF (of_long (2 ^ 62)).
Proof.
  split; [unfold fits; lia|]. split; [unfold fits, zop4; lia|].
  exists (fop Add (of_long (2 ^ 62 - 1)) (of_long 1)). split; [reflexivity|vm_compute; reflexivity].
Qed.

(** * C71: powers *)
(** What is assumed of the function pow of the C library, for whole numbers of at most 53
    bits: a power that fits 53 bits is exact and a larger one at least as large in
    magnitude (possibly infinite); a negative exponent gives less than 1 for a base beyond
    1 and -1, and an infinity for base 0. *)
Definition pow_ok (cpow : f64 -> f64 -> f64) : Prop := forall x y, Z.abs x <= 2 ^ 53 -> Z.abs y <= 2 ^ 53 ->
  let r := cpow (of_long x) (of_long y) in
  (0 <= y -> Z.abs (x ^ y) <= 2 ^ 53 -> is_finite r = true /\ B2R r = IZR (x ^ y)) /\
  (0 <= y -> 2 ^ 53 < Z.abs (x ^ y) -> is_nan r = false /\ (is_finite r = true -> IZR (2 ^ 53) <= Rabs (B2R r))%R) /\
  (y < 0 -> 1 < Z.abs x -> is_finite r = true /\ (Rabs (B2R r) < 1)%R) /\
  (y < 0 -> Z.abs x = 1 -> is_finite r = true /\ B2R r = IZR (x ^ (- y))) /\
  (y < 0 -> x = 0 -> is_finite r = false).

(** it can be met *)
Definition toy_pow (a b : f64) : f64 :=
  let x := Btrunc a in let y := Btrunc b in
  if 0 <=? y then of_long (x ^ y)
  else if x =? 0 then B754_infinity false else if Z.abs x =? 1 then of_long (x ^ (- y)) else B754_zero false.
Lemma of_long_big i : 2 ^ 53 < Z.abs i -> is_nan (of_long i) = false /\
  (is_finite (of_long i) = true -> IZR (2 ^ 53) <= Rabs (B2R (of_long i)))%R.
Proof.
  intros H. pose proof (binary_normalize_correct 53 1024 prec_gt prec_lt mode_NE i 0 false) as C. cbv zeta in C.
  change (round_mode mode_NE) with ZnearestE in C. rewrite fmt_eq in C.
  assert (F : F2R (Float radix2 i 0) = IZR i) by (unfold F2R; cbn; lra). rewrite F in C. fold (of_long i) in C.
  destruct (Rlt_bool (Rabs (round radix2 (FLT_exp (-1074) 53) ZnearestE (IZR i))) (bpow radix2 1024)).
  - destruct C as (C1 & C2 & _). split; [destruct (of_long i); try reflexivity; discriminate|].
    intros _. rewrite C1. apply abs_round_ge_generic; [typeclasses eauto|apply valid_rnd_N|apply int_format; lia|].
    rewrite <- abs_IZR. apply IZR_le. lia.
  - apply inf_sf in C. rewrite C. split; [reflexivity|discriminate].
Qed.
Lemma trunc_long i : Z.abs i <= 2 ^ 53 -> Btrunc (of_long i) = i.
Proof. intros H. rewrite trunc_ok. destruct (small_long i H) as [_ ->]. apply Ztrunc_IZR. Qed.
Lemma toy_pow_ok : pow_ok toy_pow.
Proof.
  intros x y Hx Hy r. subst r. unfold toy_pow. rewrite !trunc_long by auto. repeat split; intros.
  - replace (0 <=? y) with true by lia. apply small_long; auto.
  - replace (0 <=? y) with true by lia. apply small_long; auto.
  - replace (0 <=? y) with true by lia. apply of_long_big; auto.
  - revert H1. replace (0 <=? y) with true by lia. apply of_long_big; auto.
  - replace (0 <=? y) with false by lia. replace (x =? 0) with false by lia. replace (Z.abs x =? 1) with false by lia. reflexivity.
  - replace (0 <=? y) with false by lia. replace (x =? 0) with false by lia. replace (Z.abs x =? 1) with false by lia. cbn. rewrite Rabs_R0. lra.
  - replace (0 <=? y) with false by lia. replace (x =? 0) with false by lia. replace (Z.abs x =? 1) with true by lia.
    apply small_long. rewrite Z.abs_pow, H0, Z.pow_1_l by lia. lia.
  - replace (0 <=? y) with false by lia. replace (x =? 0) with false by lia. replace (Z.abs x =? 1) with true by lia.
    apply small_long. rewrite Z.abs_pow, H0, Z.pow_1_l by lia. lia.
  - replace (0 <=? y) with false by lia. subst. reflexivity.
Qed.

Lemma trunc_big (r : f64) : is_nan r = false -> (is_finite r = true -> IZR (2 ^ 53) <= Rabs (B2R r))%R ->
  to_int r = UB.
Proof.
  intros N H. unfold to_int. destruct (is_finite r); [|reflexivity]. specialize (H eq_refl). rewrite trunc_ok. cbn [andb].
  assert (2 ^ 53 <= Z.abs (Ztrunc (B2R r))).
  { rewrite <- Ztrunc_abs, Ztrunc_floor by apply Rabs_pos. apply Zfloor_lub. exact H. }
  destruct ((- 2 ^ 31 <=? Ztrunc (B2R r)) && (Ztrunc (B2R r) <? 2 ^ 31)) eqn:E; [lia|reflexivity].
Qed.
(** The operator ** on integers gives the power when it fits an int, 0 or the power of the
    sign for a negative exponent, and is undefined otherwise; *)
Theorem C71_operator : forall cpow x y, pow_ok cpow -> Z.abs x <= 2 ^ 53 -> Z.abs y <= 2 ^ 53 ->
  (0 <= y -> - 2 ^ 31 <= x ^ y < 2 ^ 31 -> vm_pow cpow (PN_NUM x) (PN_NUM y) = Ok (PN_NUM (x ^ y))) /\
  (0 <= y -> ~ - 2 ^ 31 <= x ^ y < 2 ^ 31 -> vm_pow cpow (PN_NUM x) (PN_NUM y) = UB) /\
  (y < 0 -> 1 < Z.abs x -> vm_pow cpow (PN_NUM x) (PN_NUM y) = Ok (PN_NUM 0)) /\
  (y < 0 -> x = 0 -> vm_pow cpow (PN_NUM x) (PN_NUM y) = UB).
Proof.
  intros cpow x y P Hx Hy. destruct (P x y Hx Hy) as (P1 & P2 & P3 & _ & P5). unfold vm_pow.
  rewrite !PN_INT_NUM by (apply fits_repb; unfold fits; lia). repeat split; intros.
  - destruct (P1 H) as [F V]; [lia|]. unfold to_int. rewrite F, trunc_ok, V, Ztrunc_IZR. cbn [andb].
    replace (- 2 ^ 31 <=? x ^ y) with true by lia. replace (x ^ y <? 2 ^ 31) with true by lia. reflexivity.
  - destruct (Z_le_gt_dec (Z.abs (x ^ y)) (2 ^ 53)) as [L|L].
    + destruct (P1 H L) as [F V]. unfold to_int. rewrite F, trunc_ok, V, Ztrunc_IZR. cbn [andb].
      destruct ((- 2 ^ 31 <=? x ^ y) && (x ^ y <? 2 ^ 31)) eqn:E; [exfalso; apply H0; lia|reflexivity].
    + destruct (P2 H) as [N B]; [lia|]. rewrite trunc_big by auto. reflexivity.
  - destruct (P3 H H0) as [F V]. unfold to_int. rewrite F, trunc_ok. cbn [andb].
    assert (T : Ztrunc (B2R (cpow (of_long x) (of_long y))) = 0).
    { assert (Z.abs (Ztrunc (B2R (cpow (of_long x) (of_long y)))) = 0); [|lia].
      rewrite <- Ztrunc_abs, Ztrunc_floor by apply Rabs_pos. apply Zfloor_imp. split; [apply Rabs_pos|exact V]. }
    rewrite T. reflexivity.
  - specialize (P5 H H0). unfold to_int. rewrite P5. reflexivity.
Qed.
(** sending ** gives the integer when it is below 2^31 - 1 in magnitude and a double with the
    exact value up to 2^53. *)
Theorem C71_method : forall cpow x y, pow_ok cpow -> Z.abs x <= 2 ^ 53 -> 0 <= y <= 2 ^ 53 -> 
  (Z.abs (x ^ y) < 2 ^ 31 - 1 -> num_pow cpow (NI x) (NI y) = Ok (NI (x ^ y))) /\
  (2 ^ 31 - 1 <= Z.abs (x ^ y) <= 2 ^ 53 -> exists d, num_pow cpow (NI x) (NI y) = Ok (ND d) /\
     is_finite d = true /\ B2R d = IZR (x ^ y)).
Proof.
  intros cpow x y P Hx Hy. destruct (P x y Hx ltac:(lia)) as (P1 & _). unfold num_pow. cbn [PN_DBL].
  destruct (small_long (2 ^ 31 - 1)) as [K1 K2]; [lia|]. split; intros H.
  - destruct P1 as [F V]; [lia|lia|]. rewrite Bltb_correct by (rewrite ?is_finite_Babs; auto).
    rewrite B2R_Babs, V, K2, <- abs_IZR, Rlt_bool_true by (apply IZR_lt; lia).
    unfold to_int. rewrite F, trunc_ok, V, Ztrunc_IZR. cbn [andb].
    replace (- 2 ^ 31 <=? x ^ y) with true by lia. replace (x ^ y <? 2 ^ 31) with true by lia. cbn [andb bind].
    rewrite PN_INT_NUM by (apply fits_repb; unfold fits; lia). reflexivity.
  - destruct P1 as [F V]; [lia|lia|]. rewrite Bltb_correct by (rewrite ?is_finite_Babs; auto).
    rewrite B2R_Babs, V, K2, <- abs_IZR, Rlt_bool_false by (apply IZR_le; lia). eexists. split; [reflexivity|]. auto.
Qed.
(** So operator and message disagree from 2^31 on, *)
Theorem C71_large_refuted : forall cpow, pow_ok cpow ->
  vm_pow cpow (PN_NUM 2) (PN_NUM 31) = UB /\
  exists d, num_pow cpow (NI 2) (NI 31) = Ok (ND d) /\ is_finite d = true /\ B2R d = IZR (2 ^ 31).
Proof.
  intros cpow P. split.
  - destruct (C71_operator cpow 2 31 P) as (_ & A & _); [lia|lia|]. apply A; lia.
  - destruct (C71_method cpow 2 31 P) as (_ & A); [lia|lia|]. apply A; lia.
Qed.
(** and with a double the operator does not compute with its value but with half its address. *)
Theorem C71_double_refuted : forall cpow p w, 0 <= p < 2 ^ 63 -> PN_IS_PTR p = true ->
  vm_pow cpow p w = vm_pow cpow (PN_NUM (p / 2)) w.
Proof.
  intros cpow p w Hp Pp. unfold vm_pow. rewrite (PN_INT_NUM (p / 2)).
  - rewrite (PN_INT_eq p). replace (s64 p) with p; [reflexivity|]. symmetry. apply s64_id. unfold two63. lia.
  - apply fits_repb. unfold fits. split; [|apply Z.div_lt_upper_bound; lia]. pose proof (Z.div_pos p 2). lia.
Qed.
Example C71_example : pow_ok toy_pow /\ vm_pow toy_pow (PN_NUM 3) (PN_NUM 4) = Ok (PN_NUM 81) /\
  vm_pow toy_pow (PN_NUM 2) (PN_NUM (-1)) = Ok (PN_NUM 0).
Proof. split; [apply toy_pow_ok|]. split; vm_compute; reflexivity. Qed.
