(** Exact characterisations on the whole integer domain for C02, C05-C09, C50, C51: what the
    code does for EVERY pair of value integers, including the operands on which the naive
    reading fails.  [wrap63 x] is the integer a value word holds after storing x. *)
From Coq Require Import ZifyBool.
From Verif Require Import Base WordModel WordProofs NumModel NumProofs PropWord PropNum.
Ltac Zify.zify_post_hook ::= Z.div_mod_to_equations.

(** 63-bit two's complement: the unique integer in range congruent to x modulo 2^63 *)
Definition wrap63 (x : Z) : Z := (x + 2^62) mod 2^63 - 2^62.
Lemma wrap63_spec x : fits (wrap63 x) /\ exists k, wrap63 x = x + k * 2^63.
Proof. unfold wrap63, fits. split; [lia|]. exists (- ((x + 2^62) / 2^63)). lia. Qed.
Lemma wrap63_fits x : fits x -> wrap63 x = x.
Proof. unfold wrap63, fits. intros. lia. Qed.
Lemma PN_INT_NUM_w x : PN_INT (PN_NUM x) = wrap63 x.
Proof. rewrite PN_INT_NUM_wrap. reflexivity. Qed.

(** C02: the boolean test answers yes exactly on booleans and on odd integers *)
Theorem C02_bool_test_exact : forall w k, denotes w k ->
  (PN_IS_BOOL w = true <-> k = KBoolean \/ exists i, fits i /\ w = PN_NUM i /\ Z.odd i = true).
Proof.
  intros w k H. rewrite PN_IS_BOOL_eq. destruct k; cbn in H.
  - destruct H as (i & Hi & ->). assert (E : PN_NUM i mod 4 = 2 * (i mod 2) + 1).
    { rewrite PN_NUM_eq. unfold two64. lia. }
    rewrite E. split.
    + intros Q. right. exists i. split; [exact Hi|]. split; [reflexivity|]. rewrite Zodd_mod. unfold Zeq_bool. destruct (Z.compare_spec (i mod 2) 1); lia.
    + intros [Q|(j & Hj & Q & Ho)]; [discriminate|]. apply PN_NUM_inj in Q; [|apply fits_repb; assumption..]. subst j.
      rewrite Zodd_mod in Ho. unfold Zeq_bool in Ho. destruct (Z.compare_spec (i mod 2) 1); [lia|discriminate..].
  - split; [left; reflexivity|]. intros _. destruct H as [-> | ->]; reflexivity.
  - subst w. split; [discriminate|]. intros [Q|(j & Hj & Q & Ho)]; [discriminate|].
    pose proof (PN_NUM_is_int j) as Hi. rewrite PN_IS_INT_eq, <- Q in Hi. discriminate.
  - split; [intros; lia|]. intros [Q|(j & Hj & Q & Ho)]; [discriminate|].
    pose proof (PN_NUM_is_int j) as Hi. rewrite PN_IS_INT_eq, <- Q in Hi. lia.
Qed.
Print Assumptions C02_bool_test_exact.
Example C02_bool_test_instance : denotes (PN_NUM 3) KInteger /\ PN_IS_BOOL (PN_NUM 3) = true /\ PN_IS_BOOL (PN_NUM 4) = false.
Proof. split; [exists 3; split; [lia|reflexivity]|]. split; reflexivity. Qed.

(** C05: + and - by message return the 63-bit wrapped result; * does when the product is a
    C long, and otherwise overflows a C long (undefined) *)
Theorem C05_send_exact : forall i j, fits i -> fits j ->
  (exists w, num_math Add (PN_NUM i) (PN_NUM j) = Ok w /\ PN_INT w = wrap63 (i + j)) /\
  (exists w, num_math Sub (PN_NUM i) (PN_NUM j) = Ok w /\ PN_INT w = wrap63 (i - j)) /\
  (-2^63 <= i * j < 2^63 -> exists w, num_math Mul (PN_NUM i) (PN_NUM j) = Ok w /\ PN_INT w = wrap63 (i * j)) /\
  (~ (-2^63 <= i * j < 2^63) -> num_math Mul (PN_NUM i) (PN_NUM j) = UB).
Proof.
  intros i j Hi Hj. apply fits_repb in Hi. apply fits_repb in Hj. repeat split.
  - eexists; split; [apply (num_math_addsub Add); auto|]. apply PN_INT_NUM_w.
  - eexists; split; [apply (num_math_addsub Sub); auto|]. apply PN_INT_NUM_w.
  - intros H. exists (PN_NUM (i * j)). split; [|apply PN_INT_NUM_w]. unfold num_math. rewrite !PN_INT_NUM by assumption.
    cbn [c_long_op]. rewrite slong_ok by (unfold two63; lia). reflexivity.
  - intros H. unfold num_math. rewrite !PN_INT_NUM by assumption.
    cbn [c_long_op]. unfold slong, in_long. replace ((- two63 <=? i * j) && (i * j <? two63)) with false by (unfold two63; lia). reflexivity.
Qed.
Print Assumptions C05_send_exact.
(** so the message and the operator agree exactly when the result fits in a value word *)
Theorem C05_send_agrees_with_operator_iff : forall op i j, In op [Add; Sub; Mul] -> fits i -> fits j ->
  let r := match op with Add => i + j | Sub => i - j | _ => i * j end in
  ((exists w, vm_math3 op (PN_NUM i) (PN_NUM j) = NWord w /\ num_math op (PN_NUM i) (PN_NUM j) = Ok w) <-> fits r).
Proof.
  intros op i j Hop Hi Hj r.
  assert (Er : zop op i j = r) by (destruct op; reflexivity).
  rewrite vm_math3_spec by (apply fits_repb; assumption). rewrite Er. split.
  - intros (w & E & _). destruct (repb r) eqn:R; [|discriminate]. apply repb_spec in R. exact R.
  - intros F. rewrite (fits_repb _ F). exists (PN_NUM r). split; [reflexivity|].
    pose proof (fits_repb _ Hi). pose proof (fits_repb _ Hj).
    destruct Hop as [<-|[<-|[<-|[]]]].
    + apply (num_math_addsub Add); auto. + apply (num_math_addsub Sub); auto.
    + apply num_math_mul_exact; auto. apply fits_repb, F.
Qed.
Print Assumptions C05_send_agrees_with_operator_iff.
Example C05_exact_instances : fits (2^62 - 1) /\ wrap63 (2^62 - 1 + 1) = -2^62 /\ wrap63 (-2^62 - 1) = 2^62 - 1 /\
  num_math Mul (PN_NUM (2^32)) (PN_NUM (2^31)) = UB.
Proof. unfold fits. repeat split; lia. Qed.

(** C06: every pair of operands: zero divisor - undefined; otherwise the remainder is exact
    and the quotient truncates, except that -2^62 / -1 gives -2^62 *)
Theorem C06_div_rem_exact : forall i j, fits i -> fits j ->
  (j = 0 -> vm_math2 Div (PN_NUM i) (PN_NUM j) = UB /\ vm_math2 Rem (PN_NUM i) (PN_NUM j) = UB) /\
  (j <> 0 -> exists q r, vm_math2 Div (PN_NUM i) (PN_NUM j) = Ok q /\ PN_IS_INT q = true /\
       PN_INT q = (if (i =? -2^62) && (j =? -1) then -2^62 else Z.quot i j) /\
       vm_math2 Rem (PN_NUM i) (PN_NUM j) = Ok r /\ PN_IS_INT r = true /\ PN_INT r = Z.rem i j).
Proof.
  intros i j Hi Hj. split.
  - intros ->. exact (C06_div_by_zero_refuted i Hi).
  - intros H0. pose proof (fits_repb _ Hi) as Hi'. pose proof (fits_repb _ Hj) as Hj'.
    exists (PN_NUM (Z.quot i j)), (PN_NUM (Z.rem i j)). unfold vm_math2.
    rewrite num_math_div, num_math_rem by assumption. rewrite !PN_INT_NUM_w.
    pose proof (Z.quot_rem i j H0). pose proof (Z.rem_bound_abs i j H0).
    split; [reflexivity|]. split; [apply PN_NUM_is_int|]. split.
    2:{ split; [reflexivity|]. split; [apply PN_NUM_is_int|]. apply wrap63_fits. unfold fits in *. lia. }
    destruct ((i =? -2^62) && (j =? -1)) eqn:E.
    + assert (i = -2^62) by lia. assert (j = -1) by lia. subst. reflexivity.
    + apply wrap63_fits. assert (N : ~ (i = -2^62 /\ j = -1)) by lia.
      destruct (C06_div_rem i j Hi Hj H0 N) as (q & r & Q & _ & Fq & _).
      unfold vm_math2 in Q. rewrite num_math_div in Q by assumption. injection Q as Q.
      pose proof (quot_range i j Hi' H0). unfold two62 in *. unfold fits in *.
      assert (Z.quot i j <> 2^62); [|lia]. intros C. rewrite C in *. rewrite PN_NUM_eq, PN_NUM_eq in Q. unfold two64 in Q. lia.
Qed.
Print Assumptions C06_div_rem_exact.

(** C07: the ordering operators on every pair of integers: the integer order, inverted
    exactly when one operand is negative and the other is not *)
Theorem C07_order_exact : forall c i j, fits i -> fits j ->
  vm_numcmp c (PN_NUM i) (PN_NUM j) = PN_BOOL (xorb (holds c i j) (xorb (i <? 0) (j <? 0))).
Proof.
  intros c i j Hi Hj. destruct (i <? 0) eqn:Ei, (j <? 0) eqn:Ej; cbn [xorb].
  - rewrite C07_order_same_sign by (try assumption; lia). destruct (holds c i j); reflexivity.
  - destruct (C07_order_mixed_sign_refuted c i j Hi Hj ltac:(lia)) as [-> _]. destruct (holds c i j); reflexivity.
  - destruct (C07_order_mixed_sign_refuted c j i Hj Hi ltac:(lia)) as [_ ->]. destruct (holds c i j); reflexivity.
  - rewrite C07_order_same_sign by (try assumption; lia). destruct (holds c i j); reflexivity.
Qed.
Print Assumptions C07_order_exact.
(** so an answer is right exactly when the signs agree *)
Theorem C07_order_right_iff_same_sign : forall c i j, fits i -> fits j ->
  (vm_numcmp c (PN_NUM i) (PN_NUM j) = PN_BOOL (holds c i j) <-> (0 <= i <-> 0 <= j)).
Proof.
  intros c i j Hi Hj. rewrite C07_order_exact by assumption.
  assert (B : forall a b, PN_BOOL a = PN_BOOL b <-> a = b) by (intros [] []; cbn; split; intros; try reflexivity; discriminate).
  rewrite B. destruct (i <? 0) eqn:Ei, (j <? 0) eqn:Ej, (holds c i j); cbn; split; intros; try reflexivity; try discriminate; lia.
Qed.
Print Assumptions C07_order_right_iff_same_sign.
(** a <=> b is b - a in 63-bit arithmetic; its sign is that of b - a exactly when b - a fits *)
Theorem C07_cmp_operator_exact : forall i j, fits i -> fits j ->
  PN_INT (vm_cmp (PN_NUM i) (PN_NUM j)) = wrap63 (j - i) /\
  (Z.sgn (PN_INT (vm_cmp (PN_NUM i) (PN_NUM j))) = Z.sgn (j - i) <-> fits (j - i)).
Proof.
  intros i j Hi Hj. unfold vm_cmp. rewrite (PN_INT_NUM i), (PN_INT_NUM j) by (apply fits_repb; assumption).
  rewrite PN_INT_NUM_w. split; [reflexivity|]. split.
  - unfold wrap63, fits in *. intros H. destruct (Z_lt_le_dec (j - i) (-2^62)); [exfalso|destruct (Z_lt_le_dec (j - i) (2^62)); [lia|exfalso]].
    + rewrite (Z.sgn_neg (j - i)) in H by lia. apply Z.sgn_neg_iff in H. lia.
    + rewrite (Z.sgn_pos (j - i)) in H by lia. apply Z.sgn_pos_iff in H. lia.
  - intros F. rewrite wrap63_fits by exact F. reflexivity.
Qed.
Print Assumptions C07_cmp_operator_exact.
Example C07_exact_instance : fits (-5) /\ fits 3 /\ vm_numcmp Gt (PN_NUM (-5)) (PN_NUM 3) = PN_TRUE /\
  PN_INT (vm_cmp (PN_NUM (-5)) (PN_NUM 3)) = 8.
Proof. unfold fits. repeat split; lia. Qed.

(** C08: the two [to] calls left out of [C08_to] run the block over all 2^63 integers and then
    overflow a C long computing the count *)
Theorem C08_to_full_range : forall (St : Type) (blk : St -> Z -> St) a b s, fits a -> fits b ->
  Z.abs (b - a) + 1 = 2^63 -> terminates (fun fuel => int_to blk fuel (PN_NUM a) (PN_NUM b) s) UB.
Proof.
  intros St blk a b s Ha Hb Hab. exists (S (Z.to_nat (Z.abs (b - a) + 1))). intros fuel Hf.
  unfold int_to. rewrite !PN_INT_NUM by (apply fits_repb; assumption). unfold fits in *.
  destruct (b <? a) eqn:E.
  - rewrite slong_ok by (unfold_consts; lia). cbn [bind].
    rewrite (to_loop blk (Z.to_nat (a - b + 1)) a (-1)); [|right; reflexivity|unfold_consts; lia|lia|unfold_consts; lia|lia].
    cbn [bind fst snd]. rewrite slong_ok by (unfold_consts; lia). cbn [bind].
    unfold slong, in_long. replace ((- two63 <=? Z.abs (b + -1 - a)) && (Z.abs (b + -1 - a) <? two63)) with false by (unfold_consts; lia). reflexivity.
  - rewrite slong_ok by (unfold_consts; lia). cbn [bind].
    rewrite (to_loop blk (Z.to_nat (b - a + 1)) a 1); [|left; reflexivity|unfold_consts; lia|lia|unfold_consts; lia|lia].
    cbn [bind fst snd]. unfold slong, in_long.
    replace ((- two63 <=? b + 1 - a) && (b + 1 - a <? two63)) with false by (unfold_consts; lia). reflexivity.
Qed.
Print Assumptions C08_to_full_range.

(** a step below zero: nothing is visited when a > b; otherwise the index runs down, below the
    start, until it overflows a C long *)
Theorem C08_step_negative : forall (St : Type) (blk : St -> Z -> St) a b k s, fits a -> fits b -> fits k -> k < 0 ->
  (b < a -> exists ret, terminates (fun fuel => int_step blk fuel (PN_NUM a) (PN_NUM b) (PN_NUM k) s) (Ok (s, ret))) /\
  (a <= b -> terminates (fun fuel => int_step blk fuel (PN_NUM a) (PN_NUM b) (PN_NUM k) s) UB).
Proof.
  intros St blk a b k s Ha Hb Hk Hneg. split; intros Hab.
  - eexists. exists 1%nat. intros fuel Hf. destruct fuel as [|fuel]; [lia|].
    unfold int_step. rewrite !PN_INT_NUM by (apply fits_repb; assumption). unfold fits in *.
    rewrite cwhile_unfold. cbn [fst snd]. replace (a <=? b) with false by lia. cbn [bind fst snd].
    rewrite slong_ok by (unfold_consts; lia). cbn [bind]. rewrite slong_ok by (unfold_consts; lia). cbn [bind c_long_op].
    replace (k =? 0) with false by lia. rewrite slong_ok; [reflexivity|].
    assert (Q : Z.abs (Z.quot (Z.abs (a - b)) k) <= Z.abs (a - b)).
    { rewrite <- Z.quot_abs by lia. rewrite Z.abs_eq by lia. rewrite Z.quot_div_nonneg by lia.
      apply Z.div_le_upper_bound; nia. }
    unfold_consts. lia.
  - exists (S (Z.to_nat (a + 2^63 + 1))). intros fuel Hf. unfold int_step.
    rewrite !PN_INT_NUM by (apply fits_repb; assumption). unfold fits in *.
    assert (L : forall n i st, (Z.to_nat (i + 2^63 + 1) <= n)%nat -> -2^63 <= i <= b ->
      cwhile n (fun p => snd p <=? b) (fun p => do i' <- slong (snd p + k); Ok (blk (fst p) (PN_NUM (snd p)), i')) (st, i) = UB).
    { induction n as [|n IH]; intros i st Hn Hi; [lia|]. rewrite cwhile_unfold. cbn [fst snd].
      replace (i <=? b) with true by lia. unfold slong, in_long.
      destruct ((- two63 <=? i + k) && (i + k <? two63)) eqn:R; cbn [bind]; [|reflexivity].
      unfold two63 in R. apply IH; lia. }
    rewrite L; [reflexivity|lia|lia].
Qed.
Print Assumptions C08_step_negative.

(** C09: a run of decimal digits is read as its positional value when that is a C long (and is
    then reduced to 63 bits by boxing); a longer one overflows *)
Theorem C09_digits_exact : forall ds, ds <> [] -> Forall (fun d => 0 <= d < 10) ds ->
  (value_of 10 ds < 2^63 -> exists w, lit_dec (map (Z.add 48) ds) = Ok w /\ PN_IS_INT w = true /\ PN_INT w = wrap63 (value_of 10 ds)) /\
  (2^63 <= value_of 10 ds -> lit_dec (map (Z.add 48) ds) = UB).
Proof.
  intros ds Hne Hf.
  assert (Hv : forall l, value_of 10 l = positional 10 l 0).
  { induction l as [|d l IH]; [reflexivity|]. cbn [value_of positional]. rewrite positional_acc, IH. lia. }
  rewrite Hv. clear Hv. unfold lit_dec. rewrite map_length. split; intros H.
  - rewrite pn_atoi_digits; [|assumption|assumption|unfold two63; lia|reflexivity].
    eexists. split; [reflexivity|]. split; [apply PN_NUM_is_int|]. apply PN_INT_NUM_w.
  - assert (L : forall l acc tl, Forall (fun d => 0 <= d < 10) l -> 0 <= acc < 2^63 -> 2^63 <= positional 10 l acc ->
      atoi_loop (map (Z.add 48) l ++ tl) (length l) 10 acc = UB).
    { induction l as [|d l IH]; intros acc tl F A P; [cbn in P; lia|]. cbn [positional] in P. inversion F as [|? ? Fd Fl]; subst.
      cbn [map app length atoi_loop]. unfold digit_of.
      replace ((48 <=? 48 + d) && (48 + d <=? 57)) with true by lia.
      unfold slong at 1, in_long at 1. destruct ((- two63 <=? acc * 10) && (acc * 10 <? two63)) eqn:R1; cbn [bind]; [|reflexivity].
      unfold slong at 1, in_long at 1. destruct ((- two63 <=? acc * 10 + (48 + d - 48)) && (acc * 10 + (48 + d - 48) <? two63)) eqn:R2; cbn [bind]; [|reflexivity].
      unfold two63 in R1, R2. apply IH; [exact Fl|lia|]. replace (acc * 10 + (48 + d - 48)) with (acc * 10 + d) by lia. exact P. }
    destruct ds as [|d ds]; [congruence|]. inversion Hf; subst. cbn [map app length].
    unfold PN_ATOI. replace (48 + d =? 45) with false by lia.
    specialize (L (d :: ds) 0 [0] Hf ltac:(lia) H). cbn [map app length] in L. rewrite L. reflexivity.
Qed.
Print Assumptions C09_digits_exact.
Example C09_digits_instances : value_of 10 [4;6;1;1;6;8;6;0;1;8;4;2;7;3;8;7;9;0;4] = 2^62 /\
  lit_dec (map (Z.add 48) [4;6;1;1;6;8;6;0;1;8;4;2;7;3;8;7;9;0;4]) = Ok (PN_NUM (-2^62)) /\ wrap63 (2^62) = -2^62.
Proof. repeat split. Qed.

(** C50: << for every count: the machine shift, reduced to a value word; counts outside
    0..63 are undefined ([C50_shift_count_refuted]) *)
Theorem C50_shift_left_exact : forall i k, fits i -> 0 <= k < 64 ->
  exists w, num_math Shl (PN_NUM i) (PN_NUM k) = Ok w /\ PN_IS_INT w = true /\ PN_INT w = wrap63 (i * 2 ^ k).
Proof.
  intros i k Hi Hk. exists (PN_NUM (s64 (i * 2 ^ k))). split.
  - unfold num_math. rewrite !PN_INT_NUM by (apply fits_repb; try assumption; unfold fits; lia). cbn [c_long_op].
    replace ((0 <=? k) && (k <? 64)) with true by lia. reflexivity.
  - split; [apply PN_NUM_is_int|]. rewrite PN_INT_NUM_w. generalize (i * 2 ^ k). intros x.
    unfold wrap63, s64. unfold_consts. lia.
Qed.
Print Assumptions C50_shift_left_exact.
Example C50_exact_instance : wrap63 (5 * 2^61) = 2^61 /\ num_math Shl (PN_NUM 5) (PN_NUM 61) = Ok (PN_NUM (2^61)).
Proof. split; reflexivity. Qed.

(** C51 *)
Theorem C51_abs_exact : forall i, fits i ->
  PN_IS_INT (num_abs (PN_NUM i)) = true /\ PN_INT (num_abs (PN_NUM i)) = (if i =? -2^62 then -2^62 else Z.abs i).
Proof.
  intros i Hi. unfold num_abs. split; [apply PN_NUM_is_int|].
  rewrite (PN_INT_NUM i) by (apply fits_repb; assumption). rewrite PN_INT_NUM_w.
  destruct (Z.eqb_spec i (-2^62)) as [->|N]; [reflexivity|]. apply wrap63_fits. unfold fits in *. lia.
Qed.
Print Assumptions C51_abs_exact.
Example C51_exact_instance : fits (-7) /\ PN_INT (num_abs (PN_NUM (-7))) = 7.
Proof. unfold fits. split; [lia|reflexivity]. Qed.
