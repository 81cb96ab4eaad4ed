(** Property C55: the decimal text of a floating-point number. *)
From Coq Require Import ZifyBool.
From Verif Require Import Base Arr NumModel DblModel.
Ltac Zify.zify_post_hook ::= Z.div_mod_to_equations.

(** ** powers of two with signed exponents *)
Lemma pw_pos e : 0 < pw e.
Proof. unfold pw. apply Z.pow_pos_nonneg; lia. Qed.
Lemma pw_shift x t : 0 <= t -> pw (x + t) * pw (- x) = 2 ^ t * pw x * pw (- (x + t)).
Proof.
  intros T. unfold pw.
  destruct (Z_le_gt_dec 0 x) as [A|A].
  - replace (Z.max 0 (x + t)) with (t + x) by lia. replace (Z.max 0 (- x)) with 0 by lia.
    replace (Z.max 0 x) with x by lia. replace (Z.max 0 (- (x + t))) with 0 by lia.
    rewrite Z.pow_add_r by lia. ring.
  - replace (Z.max 0 x) with 0 by lia. replace (Z.max 0 (- x)) with (- x) by lia.
    destruct (Z_le_gt_dec 0 (x + t)) as [B|B].
    + replace (Z.max 0 (x + t)) with (x + t) by lia. replace (Z.max 0 (- (x + t))) with 0 by lia.
      rewrite <- Z.pow_add_r by lia. replace (x + t + - x) with t by lia. change (2 ^ 0) with 1. ring.
    + replace (Z.max 0 (x + t)) with 0 by lia. replace (Z.max 0 (- (x + t))) with (- x - t) by lia.
      change (2 ^ 0) with 1. rewrite Z.mul_1_l, Z.mul_1_r. rewrite <- Z.pow_add_r by lia. f_equal. lia.
Qed.

(** ** rounding to the nearest integer *)
Lemma rhe_spec a b : 0 < b -> Z.abs (2 * (rhe a b * b - a)) <= b.
Proof.
  intros B. unfold rhe. pose proof (Z.div_mod a b) as DM. pose proof (Z.mod_pos_bound a b B) as MB.
  assert (E : a = b * (a / b) + a mod b) by (apply DM; lia). clear DM.
  set (q := a / b) in *. set (r := a mod b) in *. clearbody q r.
  destruct (2 * r <? b) eqn:C1; [|destruct (b <? 2 * r) eqn:C2; [|destruct (Z.even q)]]; nia.
Qed.
Lemma rhe_near a b m : 0 < b -> Z.abs (2 * (a - m * b)) < b -> rhe a b = m.
Proof.
  intros B H. unfold rhe. pose proof (Z.div_mod a b) as DM. pose proof (Z.mod_pos_bound a b B) as MB.
  assert (E : a = b * (a / b) + a mod b) by (apply DM; lia). clear DM.
  set (q := a / b) in *. set (r := a mod b) in *. clearbody q r.
  assert (D : q = m \/ q = m - 1) by nia.
  destruct D as [-> | ->].
  - replace (2 * r <? b) with true by nia. reflexivity.
  - replace (2 * r <? b) with false by nia. replace (b <? 2 * r) with true by nia. lia.
Qed.
Lemma rhe_exact m b : 0 < b -> rhe (m * b) b = m.
Proof. intros B. apply rhe_near; [exact B|]. replace (m * b - m * b) with 0 by ring. lia. Qed.

Lemma rhe_tie a b : 0 < b -> 2 * (a mod b) = b -> Z.even (rhe a b) = true.
Proof.
  intros B H. unfold rhe. replace (2 * (a mod b) <? b) with false by lia. replace (b <? 2 * (a mod b)) with false by lia.
  destruct (Z.even (a / b)) eqn:EV; [exact EV|]. rewrite Z.even_add, EV. reflexivity.
Qed.

(** ** the exponent chosen by the conversion is the unique one *)
Definition inbin (a b e : Z) : Prop := 2 ^ 52 * (b * pw e) <= a * pw (- e) < 2 ^ 53 * (b * pw e).
Lemma inbin_unique a b e e' : 0 < a -> 0 < b -> inbin a b e -> inbin a b e' -> e = e'.
Proof.
  assert (W : forall x y, 0 < a -> 0 < b -> inbin a b x -> inbin a b y -> x < y -> False).
  { intros x y A B [X1 X2] [Y1 Y2] L.
    pose proof (pw_shift x (y - x) ltac:(lia)) as P. replace (x + (y - x)) with y in P by lia.
    pose proof (pw_pos x). pose proof (pw_pos y). pose proof (pw_pos (- x)). pose proof (pw_pos (- y)).
    assert (T : 2 <= 2 ^ (y - x)). { change 2 with (2 ^ 1) at 1. apply Z.pow_le_mono_r; lia. }
    assert (Q1 : 2 ^ 52 * (b * pw y) * pw (- x) <= a * pw (- y) * pw (- x)) by (apply Z.mul_le_mono_nonneg_r; lia).
    assert (Q2 : a * pw (- x) * pw (- y) < 2 ^ 53 * (b * pw x) * pw (- y)) by (apply Z.mul_lt_mono_pos_r; lia).
    assert (Q3 : 2 ^ 52 * (b * pw y) * pw (- x) = 2 ^ (y - x) * (2 ^ 52 * b * pw x * pw (- y))).
    { replace (2 ^ 52 * (b * pw y) * pw (- x)) with (2 ^ 52 * b * (pw y * pw (- x))) by ring. rewrite P. ring. }
    assert (Q4 : 0 < 2 ^ 52 * b * pw x * pw (- y)) by (repeat apply Z.mul_pos_pos; lia).
    change (2 ^ 53) with (2 * 2 ^ 52) in Q2. set (u := 2 ^ 52 * b * pw x * pw (- y)) in *.
    assert (Q5 : 2 * u <= 2 ^ (y - x) * u) by (apply Z.mul_le_mono_nonneg_r; lia).
    assert (Q6 : 2 * 2 ^ 52 * (b * pw x) * pw (- y) = 2 * u) by (unfold u; ring).
    assert (Q7 : a * pw (- y) * pw (- x) = a * pw (- x) * pw (- y)) by ring. clearbody u. lia. }
  intros A B H1 H2. destruct (Z.lt_trichotomy e e') as [L|[E|L]]; [exfalso|exact E|exfalso].
  - exact (W e e' A B H1 H2 L).
  - exact (W e' e A B H2 H1 L).
Qed.
Lemma chosen_inbin a b : 0 < a -> 0 < b ->
  let e0 := Z.log2 a - Z.log2 b - 53 in
  inbin a b (if a * pw (- e0) / (b * pw e0) <? 2 ^ 53 then e0 else e0 + 1).
Proof.
  intros A B e0.
  pose proof (Z.log2_spec a A) as [LA1 LA2]. pose proof (Z.log2_spec b B) as [LB1 LB2].
  pose proof (Z.log2_nonneg a) as NA. pose proof (Z.log2_nonneg b) as NB.
  rewrite Z.pow_succ_r in LA2, LB2 by lia.
  pose proof (pw_pos e0) as P1. pose proof (pw_pos (- e0)) as P2.
  (* 2^la * q = 2^(lb+53) * p *)
  assert (K : 2 ^ Z.log2 a * pw (- e0) = 2 ^ (Z.log2 b + 53) * pw e0).
  { replace (Z.log2 a) with (Z.log2 b + 53 + e0) by (unfold e0; lia). unfold pw.
    assert (G : 0 <= Z.log2 b + 53 + e0) by (unfold e0; lia). clearbody e0.
    rewrite <- !Z.pow_add_r by lia. f_equal. lia. }
  rewrite Z.pow_add_r in K by lia.
  set (la := 2 ^ Z.log2 a) in *. set (lb := 2 ^ Z.log2 b) in *. clearbody la lb.
  set (p := pw e0) in *. set (q := pw (- e0)) in *.
  assert (D : 0 < b * p) by (apply Z.mul_pos_pos; lia).
  assert (LO : 2 ^ 52 * (b * p) <= a * q).
  { assert (b * p <= 2 * lb * p) by (apply Z.mul_le_mono_nonneg_r; lia).
    assert (la * q <= a * q) by (apply Z.mul_le_mono_nonneg_r; lia).
    change (2 ^ 53) with (2 * 2 ^ 52) in K. nia. }
  assert (HI : a * q < 2 ^ 54 * (b * p)).
  { assert (lb * p <= b * p) by (apply Z.mul_le_mono_nonneg_r; lia).
    assert (a * q < 2 * la * q) by (apply Z.mul_lt_mono_pos_r; lia).
    change (2 ^ 54) with (2 * 2 ^ 53). nia. }
  destruct (Z.ltb_spec (a * q / (b * p)) (2 ^ 53)) as [C|C].
  - split; [exact LO|]. fold p q. pose proof (Z.mul_succ_div_gt (a * q) (b * p) D) as G.
    assert (b * p * Z.succ (a * q / (b * p)) <= b * p * 2 ^ 53) by (apply Z.mul_le_mono_nonneg_l; lia). lia.
  - assert (C' : 2 ^ 53 * (b * p) <= a * q).
    { pose proof (Z.mul_div_le (a * q) (b * p) D) as G.
      assert (b * p * 2 ^ 53 <= b * p * (a * q / (b * p))) by (apply Z.mul_le_mono_nonneg_l; lia). lia. }
    pose proof (pw_shift e0 1 ltac:(lia)) as SH. fold p q in SH. change (2 ^ 1) with 2 in SH.
    pose proof (pw_pos (e0 + 1)) as R1. pose proof (pw_pos (- (e0 + 1))) as R2. unfold inbin.
    set (p' := pw (e0 + 1)) in *. set (q' := pw (- (e0 + 1))) in *. clearbody p' q' p q.
    split.
    + apply (Z.mul_le_mono_pos_r _ _ q P2).
      replace (2 ^ 52 * (b * p') * q) with (2 ^ 52 * b * (p' * q)) by ring. rewrite SH.
      replace (2 ^ 52 * b * (2 * p * q')) with (2 ^ 53 * (b * p) * q') by (change (2 ^ 53) with (2 * 2 ^ 52); ring).
      replace (a * q' * q) with (a * q * q') by ring. apply Z.mul_le_mono_nonneg_r; lia.
    + apply (Z.mul_lt_mono_pos_r q _ _ P2).
      replace (2 ^ 53 * (b * p') * q) with (2 ^ 53 * b * (p' * q)) by ring. rewrite SH.
      replace (2 ^ 53 * b * (2 * p * q')) with (2 ^ 54 * (b * p) * q') by (change (2 ^ 54) with (2 * 2 ^ 53); ring).
      replace (a * q' * q) with (a * q * q') by ring. apply Z.mul_lt_mono_pos_r; lia.
Qed.
(** rounding to 53 bits finds any 53-bit number within half a unit *)
Lemma rnd53_near a b M E : 0 < a -> 0 < b -> inbin a b E ->
  Z.abs (2 * (a * pw (- E) - M * (b * pw E))) < b * pw E -> rnd53 a b = norm 55 M E.
Proof.
  intros A B H N. unfold rnd53. replace (a =? 0) with false by lia. cbn zeta.
  pose proof (chosen_inbin a b A B) as C. cbn zeta in C.
  match goal with |- norm 55 (rhe (a * pw (- ?e)) _) _ = _ => replace e with E end.
  2: { eapply inbin_unique; [exact A|exact B|exact H|exact C]. }
  rewrite (rhe_near _ _ M); [reflexivity| |exact N]. apply Z.mul_pos_pos; [exact B|apply pw_pos].
Qed.
Lemma norm_pow t : forall fuel m e, Z.odd m = true -> (t < fuel)%nat -> norm fuel (m * 2 ^ Z.of_nat t) e = mkDbl m (e + Z.of_nat t).
Proof.
  induction t as [|t IH]; intros fuel m e O L; (destruct fuel as [|fuel]; [lia|]); cbn [norm].
  - change (2 ^ Z.of_nat 0) with 1. rewrite Z.mul_1_r. rewrite <- Z.negb_odd, O. cbn. f_equal. lia.
  - replace (Z.of_nat (S t)) with (Z.of_nat t + 1) by lia. rewrite Z.pow_add_r by lia. change (2 ^ 1) with 2.
    replace (m * (2 ^ Z.of_nat t * 2)) with (m * 2 ^ Z.of_nat t * 2) by ring.
    rewrite Z.even_mul, orb_true_r. rewrite Z.div_mul by lia. rewrite IH by (try exact O; lia). f_equal. lia.
Qed.

(** ** a finite double: 53 significant bits, lowest terms *)
Definition dbl_ok (d : dbl) : Prop :=
  (dm d = 0 /\ de d = 0) \/ (Z.odd (dm d) = true /\ Z.abs (dm d) < 2 ^ 53).
(** comparisons of |d| with numbers *)
Definition dbl_ge_half (d : dbl) : Prop := pw (- de d) <= 2 * Z.abs (dm d) * pw (de d).
Definition dbl_le (d : dbl) (x : Z) : Prop := Z.abs (dm d) * pw (de d) <= x * pw (- de d).

Lemma odd_not0 m : Z.odd m = true -> m <> 0.
Proof. intros H ->. discriminate. Qed.
(** 53-bit form *)
Lemma full_form m : 0 < m -> m < 2 ^ 53 -> exists t, 0 <= t <= 52 /\ 2 ^ 52 <= m * 2 ^ t < 2 ^ 53.
Proof.
  intros P U. pose proof (Z.log2_spec m P) as [L1 L2]. pose proof (Z.log2_nonneg m) as N.
  assert (LT : Z.log2 m <= 52). { apply Z.lt_succ_r. apply (Z.pow_lt_mono_r_iff 2); [lia|lia|]. change (Z.succ 52) with 53. lia. }
  exists (52 - Z.log2 m). split; [lia|].
  replace (2 ^ 52) with (2 ^ Z.log2 m * 2 ^ (52 - Z.log2 m)) by (rewrite <- Z.pow_add_r by lia; f_equal; lia).
  replace (2 ^ 53) with (2 ^ Z.succ (Z.log2 m) * 2 ^ (52 - Z.log2 m)) by (rewrite <- Z.pow_add_r by lia; f_equal; lia).
  assert (0 < 2 ^ (52 - Z.log2 m)) by (apply Z.pow_pos_nonneg; lia).
  split; [apply Z.mul_le_mono_nonneg_r; lia|apply Z.mul_lt_mono_pos_r; lia].
Qed.
(** the decimal number N / 10^16 printed for m * 2^e rounds back to m * 2^e *)
Lemma round_back m e N : Z.odd m = true -> 0 < m < 2 ^ 53 ->
  N = rhe (m * 10 ^ 16 * pw e) (pw (- e)) -> (pw (- e) <= 2 * m * pw e \/ -16 <= e) ->
  0 < N /\ forall a b c, 0 < c -> a * c = N -> b * c = 10 ^ 16 -> rnd53 a b = mkDbl m e.
Proof.
  intros O M EN H. destruct M as [M0 M1].
  pose proof (rhe_spec (m * 10 ^ 16 * pw e) (pw (- e)) (pw_pos _)) as RS. rewrite <- EN in RS.
  destruct (full_form m M0 M1) as (t & T & F1 & F2). set (E := e - t). set (MM := m * 2 ^ t) in *.
  pose proof (pw_shift E t ltac:(lia)) as SH. replace (E + t) with e in SH by (unfold E; lia).
  pose proof (pw_pos e) as Pe. pose proof (pw_pos (- e)) as Qe. pose proof (pw_pos E) as PE. pose proof (pw_pos (- E)) as QE.
  (* exactness when e >= -16 *)
  assert (EX : -16 <= e -> N * pw (- e) = m * 10 ^ 16 * pw e).
  { intros G. assert (DV : exists k, 10 ^ 16 = k * pw (- e)).
    { unfold pw. exists (5 ^ 16 * 2 ^ (16 - Z.max 0 (- e))). change (10 ^ 16) with (5 ^ 16 * 2 ^ 16).
      rewrite <- Z.mul_assoc, <- Z.pow_add_r by lia. f_equal. f_equal. lia. }
    destruct DV as (k & Dk). rewrite EN. rewrite Dk.
    replace (m * (k * pw (- e)) * pw e) with ((m * k * pw e) * pw (- e)) by ring.
    rewrite rhe_exact by exact Qe. ring. }
  (* the difference, at exponent E *)
  assert (DIFF : Z.abs (2 * (N * pw (- E) - MM * (10 ^ 16 * pw E))) < 10 ^ 16 * pw E /\
                 2 ^ 52 * (10 ^ 16 * pw E) <= N * pw (- E)).
  { assert (KEY : (N * pw (- E) - MM * (10 ^ 16 * pw E)) * pw (- e) = pw (- E) * (N * pw (- e) - m * 10 ^ 16 * pw e)).
    { replace ((N * pw (- E) - MM * (10 ^ 16 * pw E)) * pw (- e)) with (pw (- E) * (N * pw (- e)) - m * 10 ^ 16 * (2 ^ t * pw E * pw (- e))) by (unfold MM; ring).
      rewrite <- SH. ring. }
    set (X := N * pw (- E) - MM * (10 ^ 16 * pw E)) in *.
    assert (D0 : 0 < 10 ^ 16 * pw E) by lia.
    destruct (Z_le_gt_dec (-16) e) as [G|G].
    - rewrite (EX G), Z.sub_diag, Z.mul_0_r in KEY. assert (X = 0) by nia. split; [lia|].
      unfold X in H0. nia.
    - destruct H as [H|H]; [|lia].
      (* E >= -53 *)
      assert (EB : -53 <= E).
      { destruct (Z_le_gt_dec (-53) E) as [K|K]; [exact K|exfalso].
        assert (PE1 : pw e = 1) by (unfold pw; replace (Z.max 0 e) with 0 by lia; reflexivity).
        assert (QE1 : pw (- e) = 2 ^ (- e)) by (unfold pw; f_equal; lia).
        rewrite PE1, QE1, Z.mul_1_r in H. 
        assert (H0 : 2 ^ (54 - t) <= 2 ^ (- e)). { apply Z.pow_le_mono_r; [lia|]. unfold E in K. lia. }
        assert (P54 : 2 ^ (54 - t) * 2 ^ t = 2 * 2 ^ 53) by (rewrite <- Z.pow_add_r by lia; replace (54 - t + t) with 54 by lia; reflexivity).
        unfold MM in F2. assert (0 < 2 ^ t) by (apply Z.pow_pos_nonneg; lia).
        assert (2 ^ (54 - t) * 2 ^ t <= 2 * m * 2 ^ t) by (apply Z.mul_le_mono_nonneg_r; lia). lia. }
      assert (QB : pw (- E) < 10 ^ 16 * pw E).
      { unfold pw. destruct (Z_le_gt_dec 0 E).
        - replace (Z.max 0 (- E)) with 0 by lia. change (2 ^ 0) with 1. unfold pw in PE. lia.
        - replace (Z.max 0 E) with 0 by lia. replace (Z.max 0 (- E)) with (- E) by lia. change (2 ^ 0) with 1.
          assert (2 ^ (- E) <= 2 ^ 53) by (apply Z.pow_le_mono_r; lia). lia. }
      assert (XB : Z.abs (2 * X) < 10 ^ 16 * pw E).
      { apply (Z.mul_lt_mono_pos_r (pw (- e)) _ _ Qe).
        assert (AE : Z.abs (2 * X) * pw (- e) = pw (- E) * Z.abs (2 * (N * pw (- e) - m * 10 ^ 16 * pw e))).
        { rewrite !Z.abs_mul. rewrite <- (Z.abs_eq (pw (- e))) at 1 by lia.
          replace (Z.abs 2 * Z.abs X * Z.abs (pw (- e))) with (Z.abs 2 * Z.abs (X * pw (- e))) by (rewrite Z.abs_mul; ring).
          rewrite KEY, Z.abs_mul, (Z.abs_eq (pw (- E))) by lia. ring. }
        rewrite AE.
        assert (pw (- E) * Z.abs (2 * (N * pw (- e) - m * 10 ^ 16 * pw e)) <= pw (- E) * pw (- e)) by (apply Z.mul_le_mono_nonneg_l; lia).
        assert (pw (- E) * pw (- e) < 10 ^ 16 * pw E * pw (- e)) by (apply Z.mul_lt_mono_pos_r; lia). lia. }
      split; [exact XB|].
      (* MM > 2^52, because m > 1 *)
      assert (MG : 2 ^ 52 + 1 <= MM).
      { destruct (Z.eq_dec MM (2 ^ 52)) as [Q|Q]; [exfalso|lia].
        assert (T52 : t < 52 \/ t = 52) by lia. destruct T52 as [T52|T52].
        - unfold MM in Q. replace (2 ^ 52) with (2 ^ (52 - t) * 2 ^ t) in Q by (rewrite <- Z.pow_add_r by lia; f_equal; lia).
          apply Z.mul_cancel_r in Q; [|pose proof (Z.pow_pos_nonneg 2 t); lia].
          replace (52 - t) with (1 + (51 - t)) in Q by lia. rewrite Z.pow_add_r in Q by lia.
          rewrite Q in O. rewrite Z.odd_mul in O. discriminate.
        - unfold MM in Q. rewrite T52 in Q. assert (m = 1) by lia. subst m.
          (* 2^e with e < -16 is below 1/2 *)
          assert (PE1 : pw e = 1) by (unfold pw; replace (Z.max 0 e) with 0 by lia; reflexivity).
          assert (QE1 : pw (- e) = 2 ^ (- e)) by (unfold pw; f_equal; lia).
          rewrite PE1, QE1 in H. assert (2 ^ 16 <= 2 ^ (- e)) by (apply Z.pow_le_mono_r; lia). lia. }
      unfold X in XB. nia. }
  destruct DIFF as [DF LO].
  assert (HI : N * pw (- E) < 2 ^ 53 * (10 ^ 16 * pw E)) by nia.
  assert (D0 : 0 < 10 ^ 16 * pw E) by lia.
  assert (N0 : 0 < N) by nia.
  split; [exact N0|]. intros a b c C EA EB.
  assert (A0 : 0 < a) by nia. assert (B0 : 0 < b) by nia.
  rewrite (rnd53_near a b MM E).
  - unfold MM. replace t with (Z.of_nat (Z.to_nat t)) by lia. rewrite norm_pow by (try exact O; lia). f_equal. unfold E. lia.
  - exact A0.
  - exact B0.
  - unfold inbin. rewrite <- EA, <- EB in LO, HI. split.
    + apply (Z.mul_le_mono_pos_r _ _ c C). nia.
    + apply (Z.mul_lt_mono_pos_r c _ _ C). nia.
  - rewrite <- EA, <- EB in DF.
    replace (a * c * pw (- E) - MM * (b * c * pw E)) with (c * (a * pw (- E) - MM * (b * pw E))) in DF by ring.
    replace (b * c * pw E) with (c * (b * pw E)) in DF by ring.
    apply (Z.mul_lt_mono_pos_l c _ _ C).
    replace (c * Z.abs (2 * (a * pw (- E) - MM * (b * pw E)))) with (Z.abs (2 * (c * (a * pw (- E) - MM * (b * pw E))))); [exact DF|].
    rewrite !Z.abs_mul. rewrite (Z.abs_eq c) by lia. ring.
Qed.

(** ** digits *)
Definition digs (l : list Z) : Prop := Forall (fun c => 48 <= c <= 57) l.
Definition dval (a : Z) (l : list Z) : Z := fold_left (fun a c => a * 10 + (c - 48)) l a.
Definition nodig (r : list Z) : Prop := match r with [] => True | c :: _ => ~ (48 <= c <= 57) end.
Lemma dval_app a l l' : dval a (l ++ l') = dval (dval a l) l'.
Proof. apply fold_left_app. Qed.
Lemma pdig_app l : digs l -> forall r acc k, nodig r -> pdig (l ++ r) acc k = (dval acc l, k + zlen l, r).
Proof.
  induction l as [|c l IH]; intros D r acc k N.
  - cbn [app dval fold_left]. change (zlen (@nil Z)) with 0. rewrite Z.add_0_r.
    destruct r as [|x r]; [reflexivity|]. cbn [pdig]. cbn in N. unfold isdig. replace ((48 <=? x) && (x <=? 57)) with false by lia. reflexivity.
  - cbn [app pdig]. pose proof (Forall_inv D) as C. cbn beta in C. unfold isdig. replace ((48 <=? c) && (c <=? 57)) with true by lia.
    rewrite IH by (try exact (Forall_inv_tail D); exact N). cbn [dval fold_left]. rewrite zlen_cons. f_equal. f_equal. lia.
Qed.
Lemma dec_digits_spec f : forall n l, 0 <= n < 10 ^ Z.of_nat f -> (0 < f)%nat ->
  exists p, dec_digits f n l = p ++ l /\ digs p /\ dval 0 p = n /\ 1 <= zlen p /\ (1 < zlen p -> 10 ^ (zlen p - 1) <= n).
Proof.
  induction f as [|f IH]; intros n l H F; [lia|]. cbn [dec_digits].
  destruct (Z.eqb_spec (n / 10) 0) as [Z0|Z0].
  - exists [48 + n mod 10]. split; [reflexivity|]. split; [repeat constructor; lia|]. split; [cbn; lia|]. change (zlen _) with 1. split; lia.
  - replace (Z.of_nat (S f)) with (Z.of_nat f + 1) in H by lia. rewrite Z.pow_add_r in H by lia. change (10 ^ 1) with 10 in H.
    destruct f as [|f]; [change (10 ^ Z.of_nat 0) with 1 in H; lia|].
    destruct (IH (n / 10) ((48 + n mod 10) :: l)) as (p & E & D & V & L1 & L2); [split; [lia|apply Z.div_lt_upper_bound; lia]|lia|].
    exists (p ++ [48 + n mod 10]). rewrite zlen_app. change (zlen [48 + n mod 10]) with 1.
    split; [rewrite E, <- app_assoc; reflexivity|]. split; [apply Forall_app; split; [exact D|repeat constructor; lia]|].
    split; [rewrite dval_app, V; cbn; lia|]. split; [lia|]. intros _.
    destruct (Z.eq_dec (zlen p) 1) as [Q|Q].
    + rewrite Q. change (10 ^ (1 + 1 - 1)) with 10. lia.
    + specialize (L2 ltac:(lia)). replace (zlen p + 1 - 1) with (zlen p - 1 + 1) by lia. rewrite Z.pow_add_r by lia. change (10 ^ 1) with 10. lia.
Qed.
Lemma dec_spec n : 0 <= n -> digs (dec n) /\ dval 0 (dec n) = n /\ 1 <= zlen (dec n) /\ (1 < zlen (dec n) -> 10 ^ (zlen (dec n) - 1) <= n).
Proof.
  intros H. unfold dec.
  destruct (dec_digits_spec (S (Z.to_nat (Z.log2 n))) n []) as (p & E & K).
  - split; [exact H|]. pose proof (Z.log2_nonneg n) as L.
    destruct (Z.eq_dec n 0) as [->|N0]; [apply Z.pow_pos_nonneg; lia|].
    pose proof (Z.log2_spec n ltac:(lia)) as [_ L2]. replace (Z.of_nat (S (Z.to_nat (Z.log2 n)))) with (Z.succ (Z.log2 n)) by lia.
    assert (2 ^ Z.succ (Z.log2 n) <= 10 ^ Z.succ (Z.log2 n)) by (apply Z.pow_le_mono_l; lia). lia.
  - lia.
  - rewrite app_nil_r in E. rewrite E. exact K.
Qed.
Lemma padd_spec k : forall f, digs (padd k f) /\ length (padd k f) = k /\
  forall a, 0 <= f < 10 ^ Z.of_nat k -> dval a (padd k f) = a * 10 ^ Z.of_nat k + f.
Proof.
  induction k as [|k IH]; intros f; cbn [padd].
  - split; [constructor|]. split; [reflexivity|]. intros a H. change (10 ^ Z.of_nat 0) with 1 in *. cbn. lia.
  - destruct (IH (f / 10)) as (D & L & V). split; [apply Forall_app; split; [exact D|repeat constructor; lia]|].
    split; [rewrite app_length, L; cbn; lia|]. intros a H.
    replace (Z.of_nat (S k)) with (Z.of_nat k + 1) in * by lia. rewrite Z.pow_add_r in * by lia. change (10 ^ 1) with 10 in *.
    rewrite dval_app, V; [cbn; lia|]. split; [lia|]. apply Z.div_lt_upper_bound; lia.
Qed.
Lemma dval_zeros z : forall a, dval a (repeat 48 z) = a * 10 ^ Z.of_nat z.
Proof.
  induction z as [|z IH]; intros a; [cbn; change (10 ^ Z.of_nat 0) with 1; lia|].
  cbn [repeat dval fold_left]. change (fold_left _ (repeat 48 z) ?x) with (dval x (repeat 48 z)). rewrite IH.
  replace (Z.of_nat (S z)) with (1 + Z.of_nat z) by lia. rewrite Z.pow_add_r by lia. change (10 ^ 1) with 10. lia.
Qed.
(** stripping trailing zeros *)
Lemma strip0_spec fr x : digs fr -> exists z fr', fr = fr' ++ repeat 48 z /\
  strip0 (rev fr ++ 46 :: x) = rev fr' ++ 46 :: x /\ (fr' = [] \/ exists l c, fr' = l ++ [c] /\ c <> 46).
Proof.
  induction fr as [|c fr IH] using rev_ind; intros D.
  - exists 0%nat, []. cbn. auto.
  - apply Forall_app in D. destruct D as [D1 D2]. apply Forall_inv in D2. rewrite rev_app_distr. cbn [rev app strip0].
    destruct (Z.eqb_spec c 48) as [->|N].
    + destruct (IH D1) as (z & fr' & E & SS & T). exists (S z), fr'. split; [|split; [exact SS|exact T]].
      rewrite E at 1. rewrite <- app_assoc. f_equal. replace (S z) with (z + 1)%nat by lia. rewrite repeat_app. reflexivity.
    + exists 0%nat, (fr ++ [c]). cbn [repeat]. rewrite app_nil_r. split; [reflexivity|]. split; [rewrite rev_app_distr; reflexivity|].
      right. exists fr, c. split; [reflexivity|lia].
Qed.
Lemma ztake_app_exact (l r : list Z) : ztake (zlen l) (l ++ r) = l.
Proof. unfold ztake, zlen. rewrite Nat2Z.id. rewrite firstn_app, firstn_all, Nat.sub_diag. cbn [firstn]. apply app_nil_r. Qed.
(** the text: sign and integer digits, a point, at least one digit; dropping the
    zeros does not change the number *)
Lemma text_form pre fr : digs fr -> (0 < length fr)%nat -> zlen (pre ++ 46 :: fr) + 1 <= 40 ->
  exists z fr', fr = fr' ++ repeat 48 z /\ 1 <= zlen fr' /\
   (let ints := pre ++ 46 :: fr in
    (if zlen ints + 1 >? 40 then UB else
      let len := zlen (strip0 (rev ints)) in
      let len := if znth ints (len - 1) =? 46 then len + 1 else len in
      Ok (ztake len ints)) = Ok (pre ++ 46 :: fr')).
Proof.
  intros D LF L40. cbn zeta. replace (zlen (pre ++ 46 :: fr) + 1 >? 40) with false by lia.
  destruct (strip0_spec fr (rev pre) D) as (z & fr' & E & SS & T).
  assert (RV : rev (pre ++ 46 :: fr) = rev fr ++ 46 :: rev pre).
  { rewrite rev_app_distr. cbn [rev]. rewrite <- app_assoc. reflexivity. }
  rewrite RV, SS. assert (LN : zlen (rev fr' ++ 46 :: rev pre) = zlen pre + 1 + zlen fr') by (rewrite zlen_app, zlen_cons, !zlen_rev; lia).
  rewrite LN. pose proof (zlen_nonneg pre) as P0. pose proof (zlen_nonneg fr') as F0.
  destruct T as [->|(l & c & -> & NC)].
  - change (zlen (@nil Z)) with 0. replace (zlen pre + 1 + 0 - 1) with (zlen pre) by lia.
    replace (znth (pre ++ 46 :: fr) (zlen pre)) with 46 by (rewrite znth_app2 by lia; rewrite Z.sub_diag; reflexivity).
    rewrite Z.eqb_refl. cbn [app] in E. destruct z as [|z]; [rewrite E in LF; cbn in LF; lia|].
    exists z, [48]. split; [exact E|]. split; [change (zlen [48]) with 1; lia|]. f_equal. rewrite E. cbn [repeat].
    replace (pre ++ 46 :: 48 :: repeat 48 z) with ((pre ++ [46; 48]) ++ repeat 48 z) by (rewrite <- app_assoc; reflexivity).
    replace (zlen pre + 1 + 0 + 1) with (zlen (pre ++ [46; 48])) by (rewrite zlen_app; change (zlen [46; 48]) with 2; lia).
    apply ztake_app_exact.
  - exists z, (l ++ [c]). split; [exact E|]. split; [rewrite zlen_app; change (zlen [c]) with 1; pose proof (zlen_nonneg l); lia|].
    replace (pre ++ 46 :: fr) with ((pre ++ 46 :: l ++ [c]) ++ repeat 48 z) by (rewrite E, <- app_assoc; reflexivity).
    assert (LZ : zlen (pre ++ 46 :: l ++ [c]) = zlen pre + 1 + zlen (l ++ [c])) by (rewrite zlen_app, zlen_cons; lia).
    assert (ZC : znth ((pre ++ 46 :: l ++ [c]) ++ repeat 48 z) (zlen pre + 1 + zlen (l ++ [c]) - 1) = c).
    { rewrite znth_app1 by lia. rewrite znth_app2 by lia. rewrite zlen_app. change (zlen [c]) with 1.
      pose proof (zlen_nonneg l). rewrite znth_consS by lia. rewrite znth_app2 by lia.
      replace (zlen pre + 1 + (zlen l + 1) - 1 - zlen pre - 1 - zlen l) with 0 by lia. reflexivity. }
    rewrite ZC. replace (c =? 46) with false by lia. f_equal. rewrite <- LZ. apply ztake_app_exact.
Qed.

(** what may follow the text so that reading stops at its end *)
Definition ends_number (r : list Z) : Prop :=
  match r with [] => True | c :: _ => ~ (48 <= c <= 57) /\ c <> 101 /\ c <> 69 end.
Lemma pexp_ends r : ends_number r -> pexp r = 0.
Proof. destruct r as [|c r]; [reflexivity|]. cbn. intros (A & B & C). replace ((c =? 101) || (c =? 69)) with false by lia. reflexivity. Qed.
Lemma read_text sg ip fr r len : digs ip -> digs fr -> (0 < length ip)%nat -> ends_number r ->
  strtod ((if sg : bool then [45] else []) ++ ip ++ 46 :: fr ++ r) len =
  let d := rnd53 (dval (dval 0 ip) fr) (10 ^ zlen fr) in mkDbl ((if sg then -1 else 1) * dm d) (de d).
Proof.
  intros D1 D2 L EN. unfold strtod.
  assert (ND : nodig r) by (destruct r; [exact I|apply EN]).
  assert (SG : match (if sg then [45] else []) ++ ip ++ 46 :: fr ++ r with 45 :: t => (-1, t) | _ => (1, (if sg then [45] else []) ++ ip ++ 46 :: fr ++ r) end
     = ((if sg then -1 else 1), ip ++ 46 :: fr ++ r)).
  { destruct sg; [reflexivity|]. cbn [app]. destruct ip as [|c ip]; [cbn in L; lia|]. pose proof (Forall_inv D1) as C. cbn beta in C.
    cbn [app]. assert (NC : c <> 45) by lia. clear - NC. destruct c as [|[p|p|]|]; try reflexivity.
    destruct p as [p|p|]; try reflexivity. destruct p as [p|p|]; try reflexivity. destruct p as [p|p|]; try reflexivity. destruct p as [p|p|]; try reflexivity.
    destruct p as [p|p|]; try reflexivity. contradiction. }
  rewrite SG. rewrite pdig_app by (try exact D1; cbn; lia). cbn iota.
  rewrite pdig_app by (try exact D2; exact ND). rewrite pexp_ends by exact EN.
  replace (Z.max 0 (0 - (0 + zlen fr))) with 0 by (pose proof (zlen_nonneg fr); lia).
  replace (Z.max 0 (- (0 - (0 + zlen fr)))) with (zlen fr) by (pose proof (zlen_nonneg fr); lia).
  change (10 ^ 0) with 1. rewrite Z.mul_1_r. reflexivity.
Qed.

(** a number with an exponent: e or E, perhaps a sign, and digits *)
Definition e_sign (neg : option bool) : list Z := match neg with None => [] | Some true => [45] | Some false => [43] end.
Lemma pexp_spec e neg es r : e = 101 \/ e = 69 -> digs es -> (0 < length es)%nat -> nodig r ->
  pexp (e :: e_sign neg ++ es ++ r) = (match neg with Some true => -1 | _ => 1 end) * dval 0 es.
Proof.
  intros E D L ND. unfold pexp. replace ((e =? 101) || (e =? 69)) with true by (destruct E; subst; reflexivity).
  destruct es as [|c es]; [cbn in L; lia|]. pose proof (Forall_inv D) as C. cbn beta in C.
  assert (SG : match e_sign neg ++ (c :: es) ++ r with 45 :: t => (-1, t) | 43 :: t => (1, t) | _ => (1, e_sign neg ++ (c :: es) ++ r) end
     = (match neg with Some true => -1 | _ => 1 end, (c :: es) ++ r)).
  { destruct neg as [[|]|]; [reflexivity|reflexivity|]. cbn [e_sign app]. clear - C.
    destruct c as [|p|p]; try reflexivity; try lia. do 6 (try (destruct p as [p|p|]; try reflexivity)); lia. }
  rewrite SG. rewrite pdig_app by assumption. replace (0 + zlen (c :: es) =? 0) with false by (rewrite zlen_cons; pose proof (zlen_nonneg es); lia). reflexivity.
Qed.
(** Reading a literal with an exponent gives the double nearest to its value: the digits
    before and after the point, times ten to the exponent. *)
Theorem C55_reading_exponents : forall sg ip fr e neg es r len, digs ip -> digs fr -> digs es -> (0 < length ip)%nat -> (0 < length es)%nat ->
  e = 101 \/ e = 69 -> nodig r ->
  strtod ((if sg : bool then [45] else []) ++ ip ++ 46 :: fr ++ e :: e_sign neg ++ es ++ r) len =
  let x := (match neg with Some true => - dval 0 es | _ => dval 0 es end) - zlen fr in
  let d := if 0 <=? x then rnd53 (dval 0 (ip ++ fr) * 10 ^ x) 1 else rnd53 (dval 0 (ip ++ fr)) (10 ^ (- x)) in
  mkDbl ((if sg then -1 else 1) * dm d) (de d).
Proof.
  intros sg ip fr e neg es r len D1 D2 D3 L L3 E ND. unfold strtod.
  assert (SG : match (if sg then [45] else []) ++ ip ++ 46 :: fr ++ e :: e_sign neg ++ es ++ r with 45 :: t => (-1, t) | _ => (1, (if sg then [45] else []) ++ ip ++ 46 :: fr ++ e :: e_sign neg ++ es ++ r) end
     = ((if sg then -1 else 1), ip ++ 46 :: fr ++ e :: e_sign neg ++ es ++ r)).
  { destruct sg; [reflexivity|]. cbn [app]. destruct ip as [|c ip]; [cbn in L; lia|]. pose proof (Forall_inv D1) as C. cbn beta in C. clear - C.
    cbn [app]. destruct c as [|p|p]; try reflexivity; try lia. do 6 (try (destruct p as [p|p|]; try reflexivity)); lia. }
  rewrite SG. rewrite pdig_app by (try exact D1; cbn; lia). cbn iota.
  rewrite pdig_app by (try exact D2; cbn; destruct E; subst; lia). rewrite pexp_spec by assumption.
  cbv zeta. rewrite dval_app.
  set (y := match neg with Some true => - dval 0 es | _ => dval 0 es end).
  replace (match neg with Some true => -1 | _ => 1 end * dval 0 es) with y by (unfold y; destruct neg as [[|]|]; lia).
  replace (y - (0 + zlen fr)) with (y - zlen fr) by lia.
  destruct (0 <=? y - zlen fr) eqn:X.
  - replace (Z.max 0 (y - zlen fr)) with (y - zlen fr) by lia. replace (Z.max 0 (- (y - zlen fr))) with 0 by lia. reflexivity.
  - replace (Z.max 0 (y - zlen fr)) with 0 by lia. replace (Z.max 0 (- (y - zlen fr))) with (- (y - zlen fr)) by lia. change (10 ^ 0) with 1. rewrite Z.mul_1_r. reflexivity.
Qed.
(** 2.5e-1 is 0.25 and 1.5e2 is 150 *)
Example ex_exponents : strtod [50; 46; 53; 101; 45; 49] 6 = mkDbl 1 (-2) /\ strtod [49; 46; 53; 69; 50] 5 = mkDbl 75 1.
Proof. split; vm_compute; reflexivity. Qed.

(** ** C55 *)
(** the decimal with 16 places nearest to |d|, as an integer multiple of 10^-16 *)
Definition places16 (d : dbl) : Z := rhe (Z.abs (dm d) * 10 ^ 16 * pw (de d)) (pw (- de d)).
(** 22 digits before the point fit, 21 and a minus sign *)
Definition fits (d : dbl) : Prop := places16 d < 10 ^ (if dm d <? 0 then 37 else 38).
Lemma digs_upper : forall l a, digs l -> 0 <= a -> dval a l < (a + 1) * 10 ^ zlen l.
Proof.
  induction l as [|c l IH]; intros a D A; [cbn; change (10 ^ zlen (@nil Z)) with 1; lia|].
  pose proof (Forall_inv D) as C. cbn beta in C. rewrite zlen_cons, Z.pow_add_r by (pose proof (zlen_nonneg l); lia).
  cbn [dval fold_left]. change (fold_left _ l ?x) with (dval x l).
  specialize (IH (a * 10 + (c - 48)) (Forall_inv_tail D) ltac:(lia)).
  assert (0 < 10 ^ zlen l) by (apply Z.pow_pos_nonneg; pose proof (zlen_nonneg l); lia). change (10 ^ 1) with 10. nia.
Qed.
Lemma places16_nonneg d : 0 <= places16 d.
Proof.
  unfold places16. destruct d as [m e]. cbn [dm de].
  pose proof (rhe_spec (Z.abs m * 10 ^ 16 * pw e) (pw (- e)) (pw_pos _)) as RS. pose proof (pw_pos e). pose proof (pw_pos (- e)).
  assert (0 <= Z.abs m * 10 ^ 16 * pw e) by (repeat apply Z.mul_nonneg_nonneg; lia). nia.
Qed.
Lemma fmt_places d : fmt16f d = (if dm d <? 0 then [45] else []) ++ dec (places16 d / 10 ^ 16) ++ 46 :: padd 16 (places16 d mod 10 ^ 16).
Proof. reflexivity. Qed.
Lemma pow_split (b : bool) : 10 ^ (if b then 37 else 38) = 10 ^ 16 * 10 ^ (if b then 21 else 22).
Proof. rewrite <- Z.pow_add_r by (destruct b; lia). destruct b; reflexivity. Qed.
(** The text is the sign, digits, a point and one to sixteen digits; its value is the
    decimal with 16 places nearest to the number; and reading it gives the double nearest
    to that decimal.  It is produced exactly when it fits the buffer. *)
Theorem C55_text_and_reading_exact : forall d,
  (fits d -> exists ip fr, let text := (if dm d <? 0 then [45] else []) ++ ip ++ 46 :: fr in
     dbl_string d = Ok text /\ zlen text < 40 /\ digs ip /\ digs fr /\ 1 <= zlen ip /\ 1 <= zlen fr <= 16 /\
     dval 0 (ip ++ fr) * 10 ^ (16 - zlen fr) = places16 d /\
     forall r, ends_number r -> strtod (text ++ r) (zlen text) =
       let x := rnd53 (dval 0 (ip ++ fr)) (10 ^ zlen fr) in mkDbl ((if dm d <? 0 then -1 else 1) * dm x) (de x)) /\
  (~ fits d -> dbl_string d = UB).
Proof.
  intros [m e]. unfold fits. pose proof (places16_nonneg (mkDbl m e)) as N0. set (N := places16 (mkDbl m e)) in *. cbn [dm].
  set (ip := dec (N / 10 ^ 16)). set (fr := padd 16 (N mod 10 ^ 16)).
  assert (I0 : 0 <= N / 10 ^ 16) by (apply Z.div_pos; lia).
  destruct (dec_spec (N / 10 ^ 16) I0) as (D1 & V1 & L1 & L1'). fold ip in D1, V1, L1, L1'.
  destruct (padd_spec 16 (N mod 10 ^ 16)) as (D2 & L2 & V2). fold fr in D2, L2, V2.
  set (sg := m <? 0). set (pre := (if sg then [45] else []) ++ ip).
  assert (FM : fmt16f (mkDbl m e) = pre ++ 46 :: fr).
  { rewrite fmt_places. fold N ip fr. cbn [dm]. fold sg. unfold pre. rewrite <- app_assoc. reflexivity. }
  assert (LF : zlen fr = 16) by (unfold zlen; rewrite L2; reflexivity).
  assert (LP : zlen pre = (if sg then 1 else 0) + zlen ip) by (unfold pre; rewrite zlen_app; destruct sg; reflexivity).
  split.
  - intros F. assert (FI : N < 10 ^ (if sg then 37 else 38)) by exact F. clear F. rewrite pow_split in FI.
    assert (LI : zlen ip <= (if sg then 21 else 22)).
    { destruct (Z_le_gt_dec (zlen ip) (if sg then 21 else 22)) as [K|K]; [exact K|exfalso]. specialize (L1' ltac:(destruct sg; lia)).
      assert (10 ^ (if sg then 21 else 22) <= 10 ^ (zlen ip - 1)) by (apply Z.pow_le_mono_r; destruct sg; lia).
      assert (N / 10 ^ 16 < 10 ^ (if sg then 21 else 22)) by (apply Z.div_lt_upper_bound; [lia|exact FI]). lia. }
    destruct (text_form pre fr D2) as (z & fr' & EF & L1f & TX); [lia|rewrite zlen_app, zlen_cons; destruct sg; lia|].
    exists ip, fr'. cbn zeta. replace ((if sg then [45] else []) ++ ip ++ 46 :: fr') with (pre ++ 46 :: fr') by (unfold pre; rewrite <- app_assoc; reflexivity).
    assert (LF' : zlen fr' + Z.of_nat z = 16) by (rewrite EF, zlen_app in LF; unfold zlen in LF at 2; rewrite repeat_length in LF; exact LF).
    pose proof (zlen_nonneg fr') as F0.
    split; [unfold dbl_string; rewrite FM; exact TX|].
    split; [rewrite zlen_app, zlen_cons; destruct sg; lia|]. split; [exact D1|].
    assert (D2' : digs fr') by (rewrite EF in D2; apply Forall_app in D2; apply D2). split; [exact D2'|].
    split; [unfold zlen in *; lia|]. split; [lia|].
    assert (VN : dval (dval 0 ip) fr = N).
    { rewrite V2 by (apply Z.mod_pos_bound; lia). rewrite V1. change (10 ^ Z.of_nat 16) with (10 ^ 16).
      pose proof (Z.div_mod N (10 ^ 16)). lia. }
    rewrite EF, dval_app, dval_zeros in VN. rewrite dval_app.
    split; [rewrite <- VN; f_equal; f_equal; lia|].
    intros r EN. replace ((pre ++ 46 :: fr') ++ r) with ((if sg then [45] else []) ++ ip ++ 46 :: fr' ++ r) by (unfold pre; rewrite <- !app_assoc; reflexivity).
    rewrite read_text; [reflexivity|exact D1|exact D2'|unfold zlen in L1; lia|exact EN].
  - intros F. assert (FI : 10 ^ (if sg then 37 else 38) <= N) by (apply Z.nlt_ge; exact F). clear F. rewrite pow_split in FI.
    assert (LI : (if sg then 22 else 23) <= zlen ip).
    { destruct (Z_le_gt_dec (if sg then 22 else 23) (zlen ip)) as [K|K]; [exact K|exfalso].
      pose proof (digs_upper ip 0 D1 ltac:(lia)) as UP. rewrite V1 in UP.
      assert (10 ^ zlen ip <= 10 ^ (if sg then 21 else 22)) by (apply Z.pow_le_mono_r; destruct sg; lia).
      assert (10 ^ (if sg then 21 else 22) <= N / 10 ^ 16) by (apply Z.div_le_lower_bound; [lia|exact FI]). lia. }
    unfold dbl_string. rewrite FM. rewrite zlen_app, zlen_cons. replace (zlen pre + (1 + zlen fr) + 1 >? 40) with true by (destruct sg; lia). reflexivity.
Qed.
(** Printing a double and reading the text gives the double back, for every double whose
    text fits and which is of magnitude 1/2 or more or a multiple of 2^-16 (in
    particular every integer), as long as the reader does not run into further digits *)
Theorem C55_roundtrip_whenever_it_fits : forall d r, dbl_ok d -> (dbl_ge_half d \/ -16 <= de d) -> fits d -> ends_number r ->
  exists text, dbl_string d = Ok text /\ zlen text < 40 /\ strtod (text ++ r) (zlen text) = d.
Proof.
  intros d r OK H F EN. destruct (C55_text_and_reading_exact d) as [X _]. destruct (X F) as (ip & fr & E & L & D1 & D2 & L1 & L2 & V & RD).
  eexists. split; [exact E|]. split; [exact L|]. rewrite (RD r EN). cbv zeta. clear E L RD X. destruct d as [m e]. unfold dbl_ok, dbl_ge_half in *. cbn [dm de] in *.
  assert (CZ : 0 < 10 ^ (16 - zlen fr)) by (apply Z.pow_pos_nonneg; lia).
  destruct OK as [[-> ->]|[O B]].
  - change (places16 (mkDbl 0 0)) with 0 in V. assert (A0 : dval 0 (ip ++ fr) = 0) by nia. rewrite A0. reflexivity.
  - pose proof (odd_not0 _ O) as M0.
    assert (O' : Z.odd (Z.abs m) = true) by (destruct (Z.abs_eq_or_opp m) as [->| ->]; [exact O|rewrite Z.odd_opp; exact O]).
    assert (TEN : 10 ^ zlen fr * 10 ^ (16 - zlen fr) = 10 ^ 16) by (rewrite <- Z.pow_add_r by lia; f_equal; lia).
    destruct (round_back (Z.abs m) e (places16 (mkDbl m e)) O') as (_ & RB); [lia|reflexivity|exact H|].
    rewrite (RB _ _ _ CZ V TEN). cbn [dm de]. f_equal. destruct (Z.ltb_spec m 0); lia.
Qed.
Lemma le_fits d : dbl_le d (10 ^ 20) -> fits d.
Proof.
  destruct d as [m e]. unfold dbl_le, fits, places16. cbn [dm de]. intros LE.
  pose proof (rhe_spec (Z.abs m * 10 ^ 16 * pw e) (pw (- e)) (pw_pos _)) as RS. pose proof (pw_pos e). pose proof (pw_pos (- e)).
  set (N := rhe _ _) in *.
  assert (Z.abs m * 10 ^ 16 * pw e <= 10 ^ 36 * pw (- e)).
  { replace (10 ^ 36 * pw (- e)) with (10 ^ 16 * (10 ^ 20 * pw (- e))) by (change (10 ^ 36) with (10 ^ 16 * 10 ^ 20); ring).
    replace (Z.abs m * 10 ^ 16 * pw e) with (10 ^ 16 * (Z.abs m * pw e)) by ring. apply Z.mul_le_mono_nonneg_l; lia. }
  assert (N <= 10 ^ 36) by nia. destruct (m <? 0); lia.
Qed.
Corollary C55_roundtrip : forall d r, dbl_ok d -> (dbl_ge_half d \/ -16 <= de d) -> dbl_le d (10 ^ 20) ->
  ends_number r ->
  exists text, dbl_string d = Ok text /\ zlen text < 40 /\ strtod (text ++ r) (zlen text) = d.
Proof. intros d r OK H LE EN. apply C55_roundtrip_whenever_it_fits; auto. apply le_fits, LE. Qed.
(** -2.75 *)
Example C55_example : dbl_ok (mkDbl (-11) (-2)) /\ dbl_ge_half (mkDbl (-11) (-2)) /\ dbl_le (mkDbl (-11) (-2)) (10 ^ 20) /\
  dbl_string (mkDbl (-11) (-2)) = Ok [45; 50; 46; 55; 53] /\ ends_number [0].
Proof. repeat split; try (vm_compute; congruence). right. split; [reflexivity|vm_compute; reflexivity]. cbn; lia. Qed.
(** 1e-17 prints as 0.0 *)
Theorem C55_small_refuted : exists d text, dbl_ok d /\ dm d <> 0 /\ dbl_string d = Ok text /\ strtod (text ++ [0]) (zlen text) = mkDbl 0 0.
Proof.
  exists (rnd53 1 (10 ^ 17)). eexists. split; [right; split; vm_compute; reflexivity|]. split; [vm_compute; discriminate|].
  split; [vm_compute; reflexivity|vm_compute; reflexivity].
Qed.
(** every double of magnitude 10^23 or more overflows the 40-byte text buffer *)
Theorem C55_large_refuted : forall m e, 10 ^ 23 <= m -> 0 <= e -> dbl_string (mkDbl m e) = UB.
Proof.
  intros m e M E. unfold dbl_string, fmt16f. cbn [dm de]. replace (m <? 0) with false by lia.
  assert (P1 : pw (- e) = 1) by (unfold pw; replace (Z.max 0 (- e)) with 0 by lia; reflexivity). rewrite P1.
  set (N := rhe (Z.abs m * 10 ^ 16 * pw e) 1).
  assert (EN : N = Z.abs m * 10 ^ 16 * pw e) by (unfold N; rewrite <- (Z.mul_1_r (Z.abs m * 10 ^ 16 * pw e)) at 1; apply rhe_exact; lia).
  pose proof (pw_pos e) as PE.
  assert (NB : 10 ^ 39 <= N). { rewrite EN. change (10 ^ 39) with (10 ^ 23 * 10 ^ 16 * 1). apply Z.mul_le_mono_nonneg; lia. }
  assert (QB : 10 ^ 23 <= N / 10 ^ 16) by (apply Z.div_le_lower_bound; lia).
  destruct (dec_spec (N / 10 ^ 16) ltac:(lia)) as (D & V & L1 & L2).
  assert (LL : 24 <= zlen (dec (N / 10 ^ 16))).
  { destruct (Z_le_gt_dec 24 (zlen (dec (N / 10 ^ 16)))) as [K|K]; [exact K|exfalso].
    assert (UP : forall l a, digs l -> 0 <= a -> dval a l < (a + 1) * 10 ^ zlen l).
    { clear. induction l as [|c l IH]; intros a D A; [cbn; change (10 ^ zlen (@nil Z)) with 1; lia|].
      pose proof (Forall_inv D) as C. cbn beta in C. rewrite zlen_cons, Z.pow_add_r by (pose proof (zlen_nonneg l); lia).
      cbn [dval fold_left]. change (fold_left _ l ?x) with (dval x l).
      specialize (IH (a * 10 + (c - 48)) (Forall_inv_tail D) ltac:(lia)).
      assert (0 < 10 ^ zlen l) by (apply Z.pow_pos_nonneg; pose proof (zlen_nonneg l); lia). change (10 ^ 1) with 10. nia. }
    specialize (UP (dec (N / 10 ^ 16)) 0 D ltac:(lia)). rewrite V in UP.
    assert (10 ^ zlen (dec (N / 10 ^ 16)) <= 10 ^ 23) by (apply Z.pow_le_mono_r; lia). lia. }
  rewrite app_nil_l, zlen_app, zlen_cons. destruct (padd_spec 16 (N mod 10 ^ 16)) as (_ & LP & _).
  replace (zlen (padd 16 (N mod 10 ^ 16))) with 16 by (unfold zlen; rewrite LP; reflexivity).
  replace (zlen (dec (N / 10 ^ 16)) + (1 + 16) + 1 >? 40) with true by lia. reflexivity.
Qed.
(** the length argument is ignored: a digit after the text changes the number read *)
Theorem C55_length_ignored_refuted : exists d text, dbl_ok d /\ dbl_ge_half d /\ dbl_string d = Ok text /\
  strtod (text ++ [50; 1]) (zlen text) <> d.
Proof.
  exists (mkDbl 1 (-1)), [48; 46; 53]. split; [right; split; vm_compute; reflexivity|].
  split; [unfold dbl_ge_half; vm_compute; congruence|]. split; [vm_compute; reflexivity|]. vm_compute. discriminate.
Qed.

(** a number exactly half way between two 16-digit decimals is printed with the
    even one: for d = (10 k + 5) / 10^17 in binary, i.e. for every d with
    |d| * 10^16 = h + 1/2, the last digit printed is that of the even neighbour *)
Theorem C55_ties_print_even : forall d, 0 < pw (- de d) ->
  2 * ((Z.abs (dm d) * 10 ^ 16 * pw (de d)) mod pw (- de d)) = pw (- de d) ->
  exists n pre, fmt16f d = pre ++ padd 16 (n mod 10 ^ 16) /\ Z.even n = true /\ Z.abs (2 * (n * pw (- de d) - Z.abs (dm d) * 10 ^ 16 * pw (de d))) = pw (- de d).
Proof.
  intros d B H. set (a := Z.abs (dm d) * 10 ^ 16 * pw (de d)) in *. set (b := pw (- de d)) in *.
  exists (rhe a b), ((if dm d <? 0 then [45] else []) ++ dec (rhe a b / 10 ^ 16) ++ [46]).
  split; [|split; [apply rhe_tie; assumption|]].
  - unfold fmt16f. fold a b. rewrite <- !app_assoc. reflexivity.
  - unfold rhe. replace (2 * (a mod b) <? b) with false by lia. replace (b <? 2 * (a mod b)) with false by lia.
    pose proof (Z.div_mod a b). destruct (Z.even (a / b)); nia.
Qed.
Example C55_tie_example : fmt16f (mkDbl 1 (-17)) = ([48; 46; 48; 48; 48; 48; 48; 55; 54; 50; 57; 51; 57; 52; 53; 51; 49; 50] : list Z)
  /\ fmt16f (mkDbl 3 (-17)) = [48; 46; 48; 48; 48; 48; 50; 50; 56; 56; 56; 49; 56; 51; 53; 57; 51; 56].
Proof. split; vm_compute; reflexivity. Qed.
Print Assumptions C55_ties_print_even.
