(** Properties C04-C09, C50, C51: integers. *)
From Coq Require Import ZifyBool.
From Verif Require Import Base WordModel WordProofs NumModel NumProofs.
Ltac Zify.zify_post_hook ::= Z.div_mod_to_equations.

(** Specification vocabulary: an integer that fits in a value word. *)
Definition fits (i : Z) : Prop := -2^62 <= i < 2^62.
Lemma fits_repb i : fits i -> repb i = true.
Proof. intros H. apply repb_spec. exact H. Qed.
Lemma repb_false i : ~ fits i -> repb i = false.
Proof. intros H. destruct (repb i) eqn:E; [|reflexivity]. apply repb_spec in E. contradiction. Qed.

(** ** C04: the operators + - * of the interpreter are exact or promote *)
Theorem C04_vm_add_sub_mul_exact_or_promote : forall i j, fits i -> fits j ->
  (fits (i + j) -> vm_math3 Add (PN_NUM i) (PN_NUM j) = NWord (PN_NUM (i + j))) /\
  (~ fits (i + j) -> vm_math3 Add (PN_NUM i) (PN_NUM j) = NDouble Add i j) /\
  (fits (i - j) -> vm_math3 Sub (PN_NUM i) (PN_NUM j) = NWord (PN_NUM (i - j))) /\
  (~ fits (i - j) -> vm_math3 Sub (PN_NUM i) (PN_NUM j) = NDouble Sub i j) /\
  (fits (i * j) -> vm_math3 Mul (PN_NUM i) (PN_NUM j) = NWord (PN_NUM (i * j))) /\
  (~ fits (i * j) -> vm_math3 Mul (PN_NUM i) (PN_NUM j) = NDouble Mul i j).
Proof.
  intros i j Hi Hj. apply fits_repb in Hi. apply fits_repb in Hj.
  repeat split; intros H; rewrite vm_math3_spec by assumption; cbn [zop];
    first [rewrite fits_repb by exact H | rewrite repb_false by exact H]; reflexivity.
Qed.
Print Assumptions C04_vm_add_sub_mul_exact_or_promote.

(** read at the API: whenever the operator returns an integer it is the right one *)
Theorem C04_vm_result_never_wrapped : forall op i j w, In op [Add; Sub; Mul] -> fits i -> fits j ->
  vm_math3 op (PN_NUM i) (PN_NUM j) = NWord w ->
  PN_INT w = match op with Add => i + j | Sub => i - j | _ => i * j end.
Proof.
  intros op i j w Hop Hi Hj. apply fits_repb in Hi. apply fits_repb in Hj.
  rewrite vm_math3_spec by assumption.
  destruct (repb (zop op i j)) eqn:E; [|discriminate].
  intros H. injection H as <-. rewrite PN_INT_NUM by exact E. reflexivity.
Qed.
Print Assumptions C04_vm_result_never_wrapped.

Example C04_instances : fits (2^62 - 1) /\ ~ fits (2^62 - 1 + 1) /\
  vm_math3 Add (PN_NUM (2^62 - 1)) (PN_NUM 1) = NDouble Add (2^62 - 1) 1 /\
  vm_math3 Mul (PN_NUM (-2^31)) (PN_NUM (2^31)) = NWord (PN_NUM (-2^62)).
Proof. unfold fits. repeat split; try lia. Qed.

(** ** C05: arithmetic by message send *)
(** holds when the exact result fits *)
Theorem C05_send_exact_in_range : forall i j, fits i -> fits j ->
  (fits (i + j) -> num_math Add (PN_NUM i) (PN_NUM j) = Ok (PN_NUM (i + j))) /\
  (fits (i - j) -> num_math Sub (PN_NUM i) (PN_NUM j) = Ok (PN_NUM (i - j))) /\
  (fits (i * j) -> num_math Mul (PN_NUM i) (PN_NUM j) = Ok (PN_NUM (i * j))).
Proof.
  intros i j Hi Hj. apply fits_repb in Hi. apply fits_repb in Hj. repeat split; intros H.
  - apply (num_math_addsub Add); [left; reflexivity|assumption|assumption].
  - apply (num_math_addsub Sub); [right; reflexivity|assumption|assumption].
  - apply num_math_mul_exact; [assumption|assumption|apply fits_repb, H].
Qed.
Print Assumptions C05_send_exact_in_range.

(** but, unlike the operator, + as a message wraps to a wrong integer at 2^62 ... *)
Theorem C05_send_add_exact_refuted : exists i j w, fits i /\ fits j /\
  num_math Add (PN_NUM i) (PN_NUM j) = Ok w /\ PN_IS_INT w = true /\ PN_INT w <> i + j.
Proof.
  exists (2^62 - 1), 1, (PN_NUM (2^62)). unfold fits.
  repeat split; try lia; try reflexivity; discriminate.
Qed.
Print Assumptions C05_send_add_exact_refuted.

(** ... and * as a message performs a signed overflow *)
Theorem C05_send_mul_defined_refuted : exists i j, fits i /\ fits j /\
  num_math Mul (PN_NUM i) (PN_NUM j) = UB.
Proof. exists (2^61), (2^61). unfold fits. repeat split; try lia. Qed.
Print Assumptions C05_send_mul_defined_refuted.

(** ** C06: division and remainder (same code for the operator and the message) *)
Theorem C06_div_rem : forall i j, fits i -> fits j -> j <> 0 -> ~ (i = -2^62 /\ j = -1) ->
  exists q r, vm_math2 Div (PN_NUM i) (PN_NUM j) = Ok (PN_NUM q) /\
              vm_math2 Rem (PN_NUM i) (PN_NUM j) = Ok (PN_NUM r) /\
              fits q /\ fits r /\ i = j * q + r /\ Z.abs r < Z.abs j /\ (r = 0 \/ Z.sgn r = Z.sgn i).
Proof.
  intros i j Hi Hj H0 Hc. pose proof (fits_repb _ Hi) as Hi'. pose proof (fits_repb _ Hj) as Hj'.
  exists (Z.quot i j), (Z.rem i j). unfold vm_math2.
  rewrite num_math_div, num_math_rem by assumption.
  pose proof (Z.quot_rem i j H0) as Hqr.
  pose proof (Z.rem_bound_abs i j H0) as Hb.
  pose proof (quot_range i j Hi' H0) as Hq.
  assert (Hs : Z.rem i j = 0 \/ Z.sgn (Z.rem i j) = Z.sgn i).
  { destruct (Z.eq_dec (Z.rem i j) 0); [left; assumption|right; apply Z.rem_sign_nz; assumption]. }
  unfold fits in *.
  repeat split; try reflexivity; try assumption; try (unfold two62 in *; lia).
Qed.
Print Assumptions C06_div_rem.

(** the one remaining pair of operands gives a wrong (wrapped) quotient *)
Theorem C06_div_exact_refuted : exists i j w, fits i /\ fits j /\ j <> 0 /\
  vm_math2 Div (PN_NUM i) (PN_NUM j) = Ok w /\ PN_INT w <> Z.quot i j.
Proof.
  exists (-2^62), (-1), (PN_NUM (2^62)). unfold fits. repeat split; try lia; try reflexivity; discriminate.
Qed.
Print Assumptions C06_div_exact_refuted.

(** division by zero reaches the machine division for every dividend *)
Theorem C06_div_by_zero_refuted : forall i, fits i ->
  vm_math2 Div (PN_NUM i) (PN_NUM 0) = UB /\ vm_math2 Rem (PN_NUM i) (PN_NUM 0) = UB.
Proof. intros i Hi. split; reflexivity. Qed.
Print Assumptions C06_div_by_zero_refuted.

Example C06_instances : vm_math2 Div (PN_NUM (-7)) (PN_NUM 2) = Ok (PN_NUM (-3)) /\
  vm_math2 Rem (PN_NUM (-7)) (PN_NUM 2) = Ok (PN_NUM (-1)).
Proof. split; reflexivity. Qed.

(** ** C07: ordering *)
Definition holds (c : cmpop) (i j : Z) : bool :=
  match c with Lt => i <? j | Lte => i <=? j | Gt => j <? i | Gte => j <=? i end.

(** operands of equal sign are ordered correctly *)
Theorem C07_order_same_sign : forall c i j, fits i -> fits j -> (0 <= i <-> 0 <= j) ->
  vm_numcmp c (PN_NUM i) (PN_NUM j) = PN_BOOL (holds c i j).
Proof.
  intros c i j Hi Hj Hs. unfold vm_numcmp. f_equal. rewrite !PN_NUM_eq. unfold fits, two64 in *.
  destruct c; cbn [holds]; lia.
Qed.
Print Assumptions C07_order_same_sign.

(** operands of different sign are always ordered the wrong way round *)
Theorem C07_order_mixed_sign_refuted : forall c i j, fits i -> fits j -> i < 0 <= j ->
  vm_numcmp c (PN_NUM i) (PN_NUM j) = PN_BOOL (negb (holds c i j)) /\
  vm_numcmp c (PN_NUM j) (PN_NUM i) = PN_BOOL (negb (holds c j i)).
Proof.
  intros c i j Hi Hj Hs. unfold vm_numcmp. rewrite !PN_NUM_eq. unfold fits, two64 in *.
  split; f_equal; destruct c; cbn [holds]; lia.
Qed.
Print Assumptions C07_order_mixed_sign_refuted.

Theorem C07_equality : forall i j, fits i -> fits j ->
  (vm_eq_imm (PN_NUM i) (PN_NUM j) = PN_TRUE <-> i = j) /\
  (vm_neq_imm (PN_NUM i) (PN_NUM j) = PN_TRUE <-> i <> j).
Proof.
  intros i j Hi Hj. unfold vm_eq_imm, vm_neq_imm.
  destruct (Z.eqb_spec (PN_NUM i) (PN_NUM j)) as [E|E]; cbn.
  - apply PN_NUM_inj in E; [|apply fits_repb; assumption|apply fits_repb; assumption].
    split; split; intros; try assumption; try reflexivity; try discriminate; contradiction.
  - split; split; intros; try reflexivity; try discriminate; congruence.
Qed.
Print Assumptions C07_equality.

(** the cmp method gives -1, 0, 1 by the integer order *)
Theorem C07_cmp_method : forall i j, fits i -> fits j ->
  num_cmp (PN_NUM i) (PN_NUM j) = PN_NUM (match i ?= j with Datatypes.Lt => -1 | Eq => 0 | Datatypes.Gt => 1 end).
Proof.
  intros i j Hi Hj. unfold num_cmp. rewrite !PN_INT_NUM by (apply fits_repb; assumption).
  destruct (Z.compare_spec i j); [replace (i <? j) with false by lia; replace (i =? j) with true by lia
    | replace (i <? j) with true by lia
    | replace (i <? j) with false by lia; replace (i =? j) with false by lia]; reflexivity.
Qed.
Print Assumptions C07_cmp_method.

(** the <=> operator: the difference j - i when it fits *)
Theorem C07_cmp_operator : forall i j, fits i -> fits j -> fits (j - i) ->
  PN_INT (vm_cmp (PN_NUM i) (PN_NUM j)) = j - i.
Proof.
  intros i j Hi Hj Hd. unfold vm_cmp.
  rewrite (PN_INT_NUM i), (PN_INT_NUM j) by (apply fits_repb; assumption).
  apply PN_INT_NUM, fits_repb, Hd.
Qed.
Print Assumptions C07_cmp_operator.

(** ... with the wrong sign when it does not fit *)
Theorem C07_cmp_operator_sign_refuted : exists i j, fits i /\ fits j /\
  j - i > 0 /\ PN_INT (vm_cmp (PN_NUM i) (PN_NUM j)) < 0.
Proof. exists (-2^61), (2^61). unfold fits. repeat split; try lia. Qed.
Print Assumptions C07_cmp_operator_sign_refuted.

Example C07_instance : vm_numcmp Lt (PN_NUM (-1)) (PN_NUM 0) = PN_FALSE /\ fits (-1).
Proof. split; [reflexivity | unfold fits; lia]. Qed.

(** ** C08: counting loops, for every block [blk] and every state it acts on *)
(** the integers from a to b inclusive, in the direction of b *)
Definition range_incl (a b : Z) : list Z :=
  if b <? a then map (fun x => a - x) (zseq 0 (Z.to_nat (a - b + 1)))
  else map (fun x => a + x) (zseq 0 (Z.to_nat (b - a + 1))).

Theorem C08_times : forall (St : Type) (blk : St -> Z -> St) n s, fits n ->
  terminates (fun fuel => int_times blk fuel (PN_NUM n) s)
    (Ok (fold_left blk (map PN_NUM (zseq 0 (Z.to_nat n))) s, PN_NUM (Z.max 0 n))).
Proof.
  intros St blk n s Hn. exists (S (Z.to_nat n)). intros fuel Hf.
  unfold int_times. rewrite PN_INT_NUM by (apply fits_repb; assumption).
  rewrite (times_loop blk (Z.to_nat n)); [reflexivity|lia|apply Hn|unfold fits in Hn; lia|lia].
Qed.
Print Assumptions C08_times.

(** the hypothesis excludes only the two calls that would run the block 2^63 times, after
    which the iteration count itself overflows a C long *)
Theorem C08_to : forall (St : Type) (blk : St -> Z -> St) a b s, fits a -> fits b ->
  Z.abs (b - a) + 1 < 2^63 ->
  terminates (fun fuel => int_to blk fuel (PN_NUM a) (PN_NUM b) s)
    (Ok (fold_left blk (map PN_NUM (range_incl a b)) s, PN_NUM (Z.abs (b - a) + 1))).
Proof.
  intros St blk a b s Ha Hb Hab. exists (S (Z.to_nat (Z.abs (b - a) + 1))). intros fuel Hf.
  unfold int_to. rewrite !PN_INT_NUM by (apply fits_repb; assumption). unfold fits in *.
  unfold range_incl. destruct (b <? a) eqn:E.
  - rewrite slong_ok by (unfold_consts; lia). cbn [bind].
    rewrite (to_loop blk (Z.to_nat (a - b + 1)) a (-1)); [|right; reflexivity|unfold_consts; lia|lia|unfold_consts; lia|lia].
    cbn [bind fst snd]. rewrite slong_ok by (unfold_consts; lia). cbn [bind].
    rewrite slong_ok by (unfold_consts; lia). cbn [bind].
    assert (EL : forall l, map PN_NUM (map (fun x => a - x) l) = map (fun x => PN_NUM (a + -1 * x)) l)
      by (intros l; rewrite map_map; apply map_ext; intros; f_equal; lia).
    rewrite EL.
    replace (Z.abs (b + -1 - a)) with (Z.abs (b - a) + 1) by lia. reflexivity.
  - rewrite slong_ok by (unfold_consts; lia). cbn [bind].
    rewrite (to_loop blk (Z.to_nat (b - a + 1)) a 1); [|left; reflexivity|unfold_consts; lia|lia|unfold_consts; lia|lia].
    cbn [bind fst snd]. rewrite slong_ok by (unfold_consts; lia). cbn [bind].
    rewrite slong_ok by (unfold_consts; lia). cbn [bind].
    assert (EL : forall l, map PN_NUM (map (fun x => a + x) l) = map (fun x => PN_NUM (a + 1 * x)) l)
      by (intros l; rewrite map_map; apply map_ext; intros; f_equal; lia).
    rewrite EL.
    replace (Z.abs (b + 1 - a)) with (Z.abs (b - a) + 1) by lia. reflexivity.
Qed.
Print Assumptions C08_to.

Theorem C08_step_positive : forall (St : Type) (blk : St -> Z -> St) a b k s, fits a -> fits b -> fits k -> 0 < k ->
  exists ret, terminates (fun fuel => int_step blk fuel (PN_NUM a) (PN_NUM b) (PN_NUM k) s)
    (Ok (fold_left blk (map (fun x => PN_NUM (a + k * x)) (zseq 0 (Z.to_nat ((b - a) / k + 1)))) s, ret)).
Proof.
  intros St blk a b k s Ha Hb Hk Hpos. unfold fits in *.
  set (n := Z.to_nat ((b - a) / k + 1)).
  assert (Hd : k * ((b - a) / k) <= b - a < k * ((b - a) / k) + k).
  { pose proof (Z.mul_div_le (b - a) k Hpos). pose proof (Z.mul_succ_div_gt (b - a) k Hpos). lia. }
  assert (Hn : n = 0%nat /\ b < a \/ (0 < n)%nat /\ a + k * (Z.of_nat n - 1) <= b < a + k * Z.of_nat n).
  { subst n. destruct (Z_lt_le_dec b a) as [L|L].
    - left. split; [|assumption]. assert ((b - a) / k < 0) by (apply Z.div_lt_upper_bound; lia). lia.
    - right. assert (0 <= (b - a) / k) by (apply Z.div_pos; lia).
      split; [lia|]. rewrite Z2Nat.id by lia. lia. }
  fold n. clearbody n.
  eexists. exists (S n). intros fuel Hf. unfold int_step.
  rewrite !PN_INT_NUM by (apply fits_repb; assumption).
  rewrite (step_loop blk n); [|assumption|unfold two62; lia|unfold two62; lia|unfold two62; lia|assumption|lia]. cbn [bind fst snd].
  assert (Hend : - 2^62 <= a + k * Z.of_nat n < 2^63).
  { destruct Hn as [[-> ?]|[? ?]]; [change (Z.of_nat 0) with 0; lia|]. lia. }
  rewrite slong_ok.
  2:{ unfold_consts. destruct Hn as [[-> ?]|[? ?]]; [change (Z.of_nat 0) with 0 in *; lia|lia]. }
  cbn [bind]. rewrite slong_ok.
  2:{ unfold_consts. destruct Hn as [[-> ?]|[? ?]]; [change (Z.of_nat 0) with 0 in *; lia|lia]. }
  cbn [bind c_long_op]. replace (k =? 0) with false by lia.
  rewrite slong_ok; [reflexivity|].
  rewrite Z.quot_div_nonneg by lia.
  assert (Z.abs (a + k * Z.of_nat n - b) / k <= Z.abs (a + k * Z.of_nat n - b)).
  { apply Z.div_le_upper_bound; nia. }
  assert (0 <= Z.abs (a + k * Z.of_nat n - b) / k) by (apply Z.div_pos; lia).
  unfold_consts. destruct Hn as [[-> ?]|[? ?]]; [change (Z.of_nat 0) with 0 in *; lia|lia].
Qed.
Print Assumptions C08_step_positive.

(** step 0 never terminates (or divides by zero), whatever the block does *)
Theorem C08_step_zero_refuted : forall (St : Type) (blk : St -> Z -> St) a b s fuel, fits a -> fits b ->
  (a <= b -> int_step blk fuel (PN_NUM a) (PN_NUM b) (PN_NUM 0) s = NoFuel) /\
  (b < a -> int_step blk (S fuel) (PN_NUM a) (PN_NUM b) (PN_NUM 0) s = UB).
Proof.
  intros St blk a b s fuel Ha Hb. unfold int_step.
  rewrite !PN_INT_NUM by (apply fits_repb; try assumption; unfold fits; lia). unfold fits in *.
  split; intros H.
  - rewrite step_zero_diverges by (unfold_consts; lia). reflexivity.
  - rewrite cwhile_unfold. cbn [fst snd]. replace (a <=? b) with false by lia. cbn [bind snd fst].
    rewrite slong_ok by (unfold_consts; lia). cbn [bind].
    rewrite slong_ok by (unfold_consts; lia). reflexivity.
Qed.
Print Assumptions C08_step_zero_refuted.

Example C08_instance : int_to (fun l w => l ++ [PN_INT w]) 10 (PN_NUM 3) (PN_NUM (-1)) []
  = Ok ([3; 2; 1; 0; -1], PN_NUM 5).
Proof. reflexivity. Qed.

(** ** C09: decimal text *)
(** an integer literal written as its decimal text denotes that integer *)
Theorem C09_literal_roundtrip : forall n, fits n -> lit_dec (int_string (PN_NUM n)) = Ok (PN_NUM n).
Proof.
  intros n Hn. unfold int_string. rewrite PN_INT_NUM by (apply fits_repb; assumption).
  apply lit_dec_ld. unfold fits, two63 in *. lia.
Qed.
Print Assumptions C09_literal_roundtrip.

(** literals that do not fit are silently wrapped (here 2^62, which reads as -2^62) *)
Theorem C09_big_literal_refuted : exists n w, 0 < n /\ lit_dec (sprintf_ld n) = Ok w /\ PN_INT w < 0.
Proof. exists (2^62), (PN_NUM (2^62)). repeat split; reflexivity. Qed.
Print Assumptions C09_big_literal_refuted.

(** string number gives back integers below 10^9 in absolute value *)
Theorem C09_string_number_roundtrip : forall n, - 10^9 < n < 10^9 ->
  str_number (int_string (PN_NUM n)) = Ok (TInt (PN_NUM n)).
Proof.
  intros n Hn. unfold int_string. rewrite PN_INT_NUM by (apply fits_repb; unfold fits; lia).
  apply str_number_ld. exact Hn.
Qed.
Print Assumptions C09_string_number_roundtrip.

(** and turns every other integer into a double *)
Theorem C09_string_number_refuted : forall n, fits n -> (n <= - 10^9 \/ 10^9 <= n) ->
  str_number (int_string (PN_NUM n)) = Ok TDouble.
Proof.
  intros n Hn Hb. unfold int_string. rewrite PN_INT_NUM by (apply fits_repb; assumption).
  apply str_number_ld_big; assumption.
Qed.
Print Assumptions C09_string_number_refuted.

(** an optional sign in front of one to nine digits: the value is the positional
    value of the digits, negated exactly when the sign is a minus *)
Theorem C09_signed_digits : forall ds sg, Forall (fun d => 0 <= d < 10) ds -> (1 <= length ds <= 9)%nat ->
  sg = [] \/ sg = [45] \/ sg = [43] ->
  str_number (sg ++ map (Z.add 48) ds) =
    Ok (TInt (PN_NUM ((if match sg with c :: _ => c =? 45 | [] => false end then -1 else 1) * positional 10 ds 0))).
Proof.
  intros ds sg F L SG. rewrite str_number_digits_gen; [|exact F|destruct ds; cbn in L; [lia|discriminate]|exact SG].
  destruct (Nat.ltb_spec (length ds) 10); [|lia]. destruct sg as [|c sg]; [rewrite Z.mul_1_l; reflexivity|].
  destruct (c =? 45); [|rewrite Z.mul_1_l; reflexivity]. replace (-1 * positional 10 ds 0) with (- positional 10 ds 0) by lia. reflexivity.
Qed.
Example C09_signed_digits_example : str_number [43; 52; 50] = Ok (TInt (PN_NUM 42)) /\ str_number [45; 52; 50] = Ok (TInt (PN_NUM (-42))).
Proof. split; reflexivity. Qed.
Print Assumptions C09_signed_digits.

(** the digit parser computes the positional value: Horner spec independent of the loop *)
Fixpoint value_of (B : Z) (ds : list Z) : Z :=   (* most significant digit first *)
  match ds with [] => 0 | d :: r => d * B ^ Z.of_nat (length r) + value_of B r end.

Theorem C09_hex_literal_value : forall s ds, s <> [] -> digits_are s ds -> value_of 16 ds < 2^62 ->
  lit_hex s = Ok (PN_NUM (value_of 16 ds)).
Proof.
  intros s ds Hne Hd Hlt.
  assert (Hv : forall B l, value_of B l = positional B l 0).
  { intros B. induction l as [|d l IH]; [reflexivity|]. cbn [value_of positional].
    rewrite positional_acc, IH. lia. }
  rewrite Hv in *. unfold lit_hex, PN_ATOI.
  pose proof (digits_range s ds Hd) as Hr.
  assert (Hl := atoi_loop_spec 16 s ds [0] 0 ltac:(lia) ltac:(lia) Hd Hr ltac:(unfold_consts; lia)).
  destruct s as [|c s]; [congruence|]. cbn [app] in *.
  destruct ds as [|d ds]; [discriminate|].
  assert (c =? 45 = false) as ->.
  { destruct (Z.eqb_spec c 45) as [->|]; [|reflexivity]. discriminate. }
  rewrite Hl. reflexivity.
Qed.
Print Assumptions C09_hex_literal_value.

Example C09_instances : int_string (PN_NUM (-105)) = [45; 49; 48; 53] /\
  lit_hex [70; 102; 48] = Ok (PN_NUM 4080) /\ digits_are [70; 102; 48] [15; 15; 0].
Proof. repeat split. Qed.

(** ** C50: bit operations *)
Theorem C50_complement : forall i, fits i -> num_bitn (PN_NUM i) = PN_NUM (- i - 1) /\ fits (- i - 1).
Proof.
  intros i Hi. unfold num_bitn. rewrite PN_INT_NUM by (apply fits_repb; assumption). unfold fits in *.
  split; [f_equal; unfold Z.lnot; lia|lia].
Qed.
Print Assumptions C50_complement.

Theorem C50_shift_right : forall i k, fits i -> 0 <= k < 64 ->
  num_math Shr (PN_NUM i) (PN_NUM k) = Ok (PN_NUM (i / 2 ^ k)) /\ fits (i / 2 ^ k).
Proof.
  intros i k Hi Hk. unfold num_math.
  rewrite !PN_INT_NUM by (apply fits_repb; try assumption; unfold fits; lia). cbn [c_long_op].
  replace ((0 <=? k) && (k <? 64)) with true by lia. cbn [bind].
  rewrite Z.shiftr_div_pow2 by lia. split; [reflexivity|].
  assert (1 <= 2 ^ k) by (apply (Z.pow_le_mono_r 2 0); lia). unfold fits in *.
  split; [apply Z.div_le_lower_bound; nia | apply Z.div_lt_upper_bound; nia].
Qed.
Print Assumptions C50_shift_right.

Theorem C50_shift_left_in_range : forall i k, fits i -> 0 <= k < 64 -> fits (i * 2 ^ k) ->
  num_math Shl (PN_NUM i) (PN_NUM k) = Ok (PN_NUM (i * 2 ^ k)).
Proof.
  intros i k Hi Hk Hf. unfold num_math.
  rewrite !PN_INT_NUM by (apply fits_repb; try assumption; unfold fits; lia). cbn [c_long_op].
  replace ((0 <=? k) && (k <? 64)) with true by lia. cbn [bind]. rewrite s64_id; [reflexivity|].
  unfold fits in Hf. unfold_consts. lia.
Qed.
Print Assumptions C50_shift_left_in_range.

(** shifting by a negative count, or by 64 and more, is undefined in C and not guarded *)
Theorem C50_shift_count_refuted : forall i k, fits i -> fits k -> (k < 0 \/ 64 <= k) ->
  num_math Shl (PN_NUM i) (PN_NUM k) = UB /\ num_math Shr (PN_NUM i) (PN_NUM k) = UB.
Proof.
  intros i k Hi Hk Hc. unfold num_math.
  rewrite !PN_INT_NUM by (apply fits_repb; assumption). cbn [c_long_op].
  replace ((0 <=? k) && (k <? 64)) with false by lia. split; reflexivity.
Qed.
Print Assumptions C50_shift_count_refuted.

Example C50_instance : num_math Shl (PN_NUM 3) (PN_NUM 4) = Ok (PN_NUM 48) /\ fits (3 * 2^4).
Proof. split; [reflexivity|unfold fits; lia]. Qed.

(** ** C51: absolute value *)
Theorem C51_abs : forall i, fits i -> i <> -2^62 ->
  num_abs (PN_NUM i) = PN_NUM (Z.abs i) /\ fits (Z.abs i).
Proof.
  intros i Hi Hne. unfold num_abs. rewrite PN_INT_NUM by (apply fits_repb; assumption).
  split; [reflexivity|]. unfold fits in *. lia.
Qed.
Print Assumptions C51_abs.

Theorem C51_abs_nonnegative_refuted : exists i, fits i /\ PN_INT (num_abs (PN_NUM i)) < 0.
Proof. exists (-2^62). split; [unfold fits; lia|reflexivity]. Qed.
Print Assumptions C51_abs_nonnegative_refuted.
