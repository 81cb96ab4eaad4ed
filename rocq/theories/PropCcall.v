(** C69: calling a function of the language from C. *)
From Verif Require Import Base Arr WordModel WordProofs SigModel PropSig CcallModel.
From Coq Require Import ZifyBool.
Ltac Zify.zify_post_hook ::= Z.div_mod_to_equations.

(** ** Specification *)
(** the type letter of a value *)
Definition letter (vt : Z -> Z) (v : Z) : Z := type_char (type_of vt v).
(** the type letter that a parameter demands; none when it has neither a type nor a
    default value *)
Definition demand (vt : Z -> Z) (d : deco) : option Z :=
  match d with
  | Default v => Some (letter vt v)
  | Typed t | Modified t _ => if PN_IS_INT t then Some (PN_INT t mod 256) else None
  | Plain => None
  end.
(** the value lies where the newest objects are, or is an immediate value that, read as
    an address, does not lie behind them *)
Definition young (mem hi v : Z) : Prop := if PN_IS_PTR v then mem <= v <= hi else v <= hi.
(** What the body of the function receives for the parameter number [i] with decoration
    [d] when the C caller passes [a]; [count] is the number of arguments announced (0:
    none announced). *)
Definition receives (vt : Z -> Z) (mem hi STR0 req count i : Z) (d : deco) (a r : Z) : Prop :=
  match demand vt d with
  | None => r = a
  | Some c =>
      (i < req /\ r = a) \/
      (req <= i /\ (count = 0 \/ i < count) /\ young mem hi a /\ (c = 0 \/ letter vt a = c) /\ r = a) \/
      (req <= i /\ ~ ((count = 0 \/ i < count) /\ young mem hi a /\ (c = 0 \/ letter vt a = c)) /\
       missing STR0 d = Some r)
  end.
(** an optional parameter without decoration is not directly followed by a bar or dots *)
Definition plain_ends (l : list item) : Prop :=
  forall pre n x post, l = pre ++ Param n Plain :: x :: post -> required l <= zlen (params pre) -> is_param x = true.

(** ** Proofs *)
Lemma ffi_young mem hi v : is_ffiptr mem hi v = false <-> young mem hi v.
Proof. unfold is_ffiptr, young. destruct (PN_IS_PTR v); cbn [negb andb orb]; lia. Qed.

Lemma nth_split_at A (l : list A) k x : nth_error l k = Some x -> exists p q, l = p ++ x :: q /\ length p = k.
Proof. apply nth_error_split. Qed.

Section Pf.
Variable is_str : Z -> bool.
Variable vt : Z -> Z.
Variables mem hi STR0 : Z.
Hypothesis SO : strings_are_objects is_str.

Lemma enc_head_int l w r : Forall (item_ok is_str) l -> enc l = w :: r -> PN_IS_INT w = true ->
  exists x post, l = x :: post /\ is_param x = false.
Proof.
  intros H E W. destruct l as [|x post]; [discriminate|]. exists x, post. split; auto.
  destruct x as [n d| |]; auto. apply Forall_inv in H. destruct H as [Hn _].
  exfalso. unfold enc in E. cbn [map concat] in E.
  assert (w = n) by (destruct d; cbn in E; congruence). subst w.
  apply SO in Hn. unfold PN_IS_PTR in Hn. rewrite W in Hn. discriminate.
Qed.

Lemma one_arg_receives l i a req count n d : Forall (item_ok is_str) l -> plain_ends l -> 0 <= i ->
  req = required l ->
  nth_error (params l) (Z.to_nat i) = Some (Param n d) ->
  exists r, one_arg is_str vt mem hi STR0 (enc l) req count i a = Ok r /\ receives vt mem hi STR0 req count i d a r.
Proof.
  intros H PE Hi -> E. destruct (al_enc is_str SO l (-1) i n d H Hi E) as (pre & post & El & Lp & A & _).
  replace (-1 + 1 + i) with i in A by lia.
  unfold one_arg. replace (sig_at is_str (enc l) i) with (al is_str (enc l) (-1) i) by (symmetry; exact (at_al is_str (enc l) [] (-1) i)).
  rewrite A. cbn [bind].
  destruct (i <? required l) eqn:Q.
  { exists a. split; [reflexivity|]. unfold receives. destruct (demand vt d); [left; lia|reflexivity]. }
  cbn [orb].
  assert (Ht : forall t, PN_IS_INT t = true -> demand vt d = Some (PN_INT t mod 256) -> missing STR0 d = Some (zero_of STR0 t) ->
    exists r, (if zlen [n; t] <? 2 then Ok a else
       do type <- (if zlen [n; t] >? 2 then do d <- rd [n; t] 2; Ok (type_char (type_of vt d))
                else do ty <- rd [n; t] 1; Ok (PN_INT ty mod 256));
       if (negb (count =? 0) && (i >=? count)) || is_ffiptr mem hi a
       || (negb (type =? 0) && negb (type_char (type_of vt a) =? type))
       then if zlen [n; t] =? 3 then rd [n; t] 2 else Ok (type_default STR0 type)
       else Ok a) = Ok r /\ receives vt mem hi STR0 (required l) count i d a r).
  { intros t It D M. change (zlen [n; t] <? 2) with false. change (zlen [n; t] >? 2) with false.
    change (zlen [n; t] =? 3) with false. change (rd [n; t] 1) with (Ok t). cbv iota. cbn [bind].
    unfold receives. rewrite D. fold (letter vt a). pose proof (ffi_young mem hi a) as FY.
    set (c := PN_INT t mod 256) in *.
    destruct ((negb (count =? 0) && (i >=? count)) || is_ffiptr mem hi a || (negb (c =? 0) && negb (letter vt a =? c))) eqn:C.
    - exists (type_default STR0 c). split; [reflexivity|]. right. right. split; [lia|]. split.
      + intros (C1 & C2 & C3). apply FY in C2. rewrite C2 in C. lia.
      + rewrite M. f_equal. unfold zero_of, type_default. fold c. replace (c mod 256) with c by (subst c; lia).
        destruct (c =? 78), (c =? 73); reflexivity.
    - exists a. split; [reflexivity|]. right. left.
      apply orb_false_iff in C. destruct C as [C C3]. apply orb_false_iff in C. destruct C as [C1 C2].
      split; [lia|]. split; [lia|]. split; [apply FY; auto|]. split; [lia|reflexivity]. }
  destruct d as [|t|d|t m]; cbn [cut].
  - assert (P : match enc post with w :: _ => if PN_IS_INT w then [n; w] else [n] | [] => [n] end = [n]).
    { destruct (enc post) as [|w r] eqn:Ew; auto. destruct (PN_IS_INT w) eqn:W; auto. exfalso.
      assert (Hp : Forall (item_ok is_str) post).
      { rewrite El in H. apply Forall_app in H. destruct H as [_ H]. apply Forall_inv_tail in H. auto. }
      destruct (enc_head_int post w r Hp Ew W) as (x & post' & -> & X).
      rewrite (PE pre n x post' El) in X; [discriminate|lia]. }
    rewrite P. change (zlen [n] <? 2) with true. cbv iota. exists a. split; reflexivity.
  - destruct (PN_IS_INT t) eqn:T; [apply Ht; auto; cbn [demand missing]; rewrite T; reflexivity|].
    change (zlen [n] <? 2) with true. cbv iota. exists a. split; [reflexivity|]. unfold receives. cbn [demand]. rewrite T. reflexivity.
  - change (zlen [n; PN_NUM 58; d] <? 2) with false. change (zlen [n; PN_NUM 58; d] >? 2) with true.
    change (zlen [n; PN_NUM 58; d] =? 3) with true. change (rd [n; PN_NUM 58; d] 2) with (Ok d). cbv iota. cbn [bind].
    fold (letter vt d). fold (letter vt a). unfold receives. cbn [demand missing]. pose proof (ffi_young mem hi a) as FY.
    set (c := letter vt d) in *.
    destruct ((negb (count =? 0) && (i >=? count)) || is_ffiptr mem hi a || (negb (c =? 0) && negb (letter vt a =? c))) eqn:C.
    + exists d. split; [reflexivity|]. right. right. split; [lia|]. split; [|reflexivity].
      intros (C1 & C2 & C3). apply FY in C2. rewrite C2 in C. lia.
    + exists a. split; [reflexivity|]. right. left.
      apply orb_false_iff in C. destruct C as [C C3]. apply orb_false_iff in C. destruct C as [C1 C2].
      split; [lia|]. split; [lia|]. split; [apply FY; auto|]. split; [lia|reflexivity].
  - destruct (PN_IS_INT t) eqn:T; [apply Ht; auto; cbn [demand missing]; rewrite T; reflexivity|].
    change (zlen [n] <? 2) with true. cbv iota. exists a. split; [reflexivity|]. unfold receives. cbn [demand]. rewrite T. reflexivity.
Qed.

Lemma params_are l k x : nth_error (params l) k = Some x -> exists n d, x = Param n d.
Proof.
  intros E. apply nth_error_In in E. unfold params in E. apply filter_In in E. destruct E as [_ E].
  destruct x as [n d| |]; try discriminate. eauto.
Qed.

Lemma loop_receives l req count : Forall (item_ok is_str) l -> plain_ends l -> req = required l ->
  forall k va i acc, 0 <= i -> i + Z.of_nat k = zlen (params l) -> (k <= length va)%nat ->
  exists rs, args_loop is_str vt mem hi STR0 (enc l) req count i k va acc = Ok (acc ++ rs) /\ length rs = k /\
    forall j n d a r, nth_error (params l) (Z.to_nat i + j) = Some (Param n d) -> nth_error va j = Some a -> nth_error rs j = Some r ->
      receives vt mem hi STR0 req count (i + Z.of_nat j) d a r.
Proof.
  intros H PE Er. induction k as [|k IH]; intros va i acc Hi L Lv.
  - exists []. cbn [args_loop]. rewrite app_nil_r. split; auto. split; auto. intros [|j]; discriminate.
  - destruct va as [|a va]; [cbn in Lv; lia|]. cbn [args_loop].
    destruct (nth_error (params l) (Z.to_nat i)) as [x|] eqn:E.
    2:{ apply nth_error_None in E. unfold zlen in L. lia. }
    destruct (params_are _ _ _ E) as (n & d & ->).
    destruct (one_arg_receives l i a req count n d H PE Hi Er E) as (r & -> & R). cbn [bind].
    destruct (IH va (i + 1) (acc ++ [r])) as (rs & E1 & E2 & E3); [lia|lia|cbn in Lv; lia|].
    exists (r :: rs). rewrite E1, <- app_assoc. split; [reflexivity|]. split; [cbn; lia|].
    intros [|j] n' d' a' r' P1 P2 P3.
    + rewrite Nat.add_0_r, E in P1. injection P1 as <- <-. injection P2 as <-. injection P3 as <-.
      replace (i + Z.of_nat 0) with i by lia. exact R.
    + cbn [nth_error] in P2, P3. replace (i + Z.of_nat (S j)) with (i + 1 + Z.of_nat j) by lia.
      apply (E3 j n' d' a' r'); auto. replace (Z.to_nat (i + 1) + j)%nat with (Z.to_nat i + S j)%nat by lia. auto.
Qed.
End Pf.

(** ** Theorems *)
(** Calling a function with a parameter list from C, with at least as many arguments as
    it has parameters: a receiver of at least 10 is passed on and no count is announced;
    a smaller one becomes nil and is taken as the count.  Every parameter receives what
    [receives] says. *)
Theorem C69_call : forall is_str vt mem hi STR0 l self va, strings_are_objects is_str ->
  Forall (item_ok is_str) l -> plain_ends l -> zlen (params l) <= zlen va ->
  exists rs, vm_proto is_str vt mem hi STR0 (Some (enc l)) self va = Ok (if self <? 10 then 0 else self, Some rs) /\
    zlen rs = zlen (params l) /\
    forall j n d a r, nth_error (params l) j = Some (Param n d) -> nth_error va j = Some a -> nth_error rs j = Some r ->
      receives vt mem hi STR0 (required l) (if self <? 10 then self else 0) (Z.of_nat j) d a r.
Proof.
  intros is_str vt mem hi STR0 l self va SO H PE L. unfold vm_proto.
  rewrite C38_arity by auto. cbn [bind]. destruct (C38_minargs is_str l SO H) as [-> B]. cbn [bind].
  pose proof (zlen_nonneg (params l)) as Z0.
  destruct (loop_receives is_str vt mem hi STR0 SO l (required l) (if self <? 10 then self else 0) H PE eq_refl
              (Z.to_nat (zlen (params l))) va 0 []) as (rs & E1 & E2 & E3); [lia|lia|unfold zlen in *; lia|].
  exists rs. split; [|split].
  - destruct (self <? 10); rewrite E1; reflexivity.
  - unfold zlen at 1. rewrite E2. lia.
  - intros j n d a r P1 P2 P3. replace (Z.of_nat j) with (0 + Z.of_nat j) by lia. apply (E3 j n d a r); auto.
Qed.
(** So required parameters and parameters without a type or a default always receive
    exactly the argument, *)
Theorem C69_required_exact : forall is_str vt mem hi STR0 l self va, strings_are_objects is_str ->
  Forall (item_ok is_str) l -> plain_ends l -> zlen (params l) <= zlen va ->
  exists s rs, vm_proto is_str vt mem hi STR0 (Some (enc l)) self va = Ok (s, Some rs) /\
    forall j n d a, nth_error (params l) j = Some (Param n d) -> nth_error va j = Some a ->
      Z.of_nat j < required l \/ demand vt d = None -> nth_error rs j = Some a.
Proof.
  intros is_str vt mem hi STR0 l self va SO H PE L.
  destruct (C69_call is_str vt mem hi STR0 l self va SO H PE L) as (rs & E & Lr & R).
  exists (if self <? 10 then 0 else self), rs. split; auto. intros j n d a P1 P2 C.
  destruct (nth_error rs j) as [r|] eqn:P3.
  2:{ exfalso. apply nth_error_None in P3. assert (nth_error (params l) j <> None) by congruence.
      apply nth_error_Some in H0. unfold zlen in Lr. lia. }
  specialize (R j n d a r P1 P2 P3). unfold receives in R. destruct (demand vt d) as [c|]; [|congruence].
  destruct C as [C|C]; [|discriminate]. destruct R as [[_ ->]|[[R _]|[R _]]]; auto; lia.
Qed.
(** and so does an optional parameter when the argument has the demanded type, lies among
    the newest objects, and no smaller count is announced. *)
Theorem C69_optional_exact : forall is_str vt mem hi STR0 l self va, strings_are_objects is_str ->
  Forall (item_ok is_str) l -> plain_ends l -> zlen (params l) <= zlen va ->
  exists s rs, vm_proto is_str vt mem hi STR0 (Some (enc l)) self va = Ok (s, Some rs) /\
    forall j n d a c, nth_error (params l) j = Some (Param n d) -> nth_error va j = Some a ->
      demand vt d = Some c -> letter vt a = c -> young mem hi a ->
      (10 <= self \/ self = 0 \/ Z.of_nat j < self) -> nth_error rs j = Some a.
Proof.
  intros is_str vt mem hi STR0 l self va SO H PE L.
  destruct (C69_call is_str vt mem hi STR0 l self va SO H PE L) as (rs & E & Lr & R).
  exists (if self <? 10 then 0 else self), rs. split; auto. intros j n d a c P1 P2 D Lt Y C.
  destruct (nth_error rs j) as [r|] eqn:P3.
  2:{ exfalso. apply nth_error_None in P3. assert (nth_error (params l) j <> None) by congruence.
      apply nth_error_Some in H0. unfold zlen in Lr. lia. }
  specialize (R j n d a r P1 P2 P3). unfold receives in R. rewrite D in R.
  destruct R as [[_ ->]|[(_ & _ & _ & _ & ->)|[_ [R _]]]]; auto. exfalso. apply R.
  split; [destruct (self <? 10) eqn:S10; lia|]. split; auto.
Qed.
(** The letters: nil n, every integer N, true and false B; an object (an address divisible
    by eight) the letter of its type: D double, S string, & function, u list, F file, o object,
    b bytes, T table, k lick, and so on by potion.h 113-136 and internal.c 206-234; m for a
    class of the program. *)
Lemma letter_ptr vt p : 0 < p -> p mod 8 = 0 -> letter vt p = type_char (vt p).
Proof.
  intros P A. unfold letter, type_of.
  assert (E : forall k, 0 <= k < 3 -> Z.testbit p k = false).
  { intros k K. rewrite <- (Z.mod_pow2_bits_low p 3 k) by lia. change (2 ^ 3) with 8. rewrite A. apply Z.bits_0. }
  assert (I1 : PN_IS_INT p = false).
  { unfold PN_IS_INT. apply negb_false_iff, Z.eqb_eq. apply Z.bits_inj'. intros k K. rewrite Z.land_spec, Z.bits_0.
    destruct (Z.eq_dec k 0) as [->|N]; [rewrite E by lia; reflexivity|]. destruct k as [|q|]; [lia| |lia]. destruct q; rewrite andb_false_r; reflexivity. }
  rewrite I1. assert (I2 : Z.land p 2 = 0).
  { apply Z.bits_inj'. intros k K. rewrite Z.land_spec, Z.bits_0.
    destruct (Z.eq_dec k 1) as [->|N]; [rewrite E by lia; reflexivity|]. change 2 with (2 ^ 1). rewrite Z.pow2_bits_false by lia. apply andb_false_r. }
  rewrite I2. cbn [Z.eqb negb]. unfold PN_NIL. replace (p =? 0) with false by lia. reflexivity.
Qed.
Definition letters : list (Z * Z) :=
  [(3, 68); (5, 83); (7, 38); (8, 117); (10, 70); (11, 111); (12, 116); (14, 98); (15, 80); (17, 84); (18, 107)].
Theorem C69_letters : forall vt, letter vt PN_NIL = 110 /\ letter vt PN_TRUE = 66 /\ letter vt PN_FALSE = 66 /\
  (forall k, letter vt (PN_NUM k) = 78) /\
  (forall p n c, In (n, c) letters -> 0 < p -> p mod 8 = 0 -> vt p = 2424832 + n -> letter vt p = c) /\
  (forall p, 0 < p -> p mod 8 = 0 -> 2424832 + 23 <= vt p -> letter vt p = 109).
Proof.
  intros vt. split; [reflexivity|]. split; [reflexivity|]. split; [reflexivity|].
  split; [intros k; unfold letter, type_of; rewrite PN_NUM_is_int; reflexivity|]. split.
  - intros p n c H P A V. rewrite letter_ptr, V by assumption. cbn in H. repeat (destruct H as [[= <- <-]|H]; [reflexivity|]). destruct H.
  - intros p P A V. rewrite letter_ptr by assumption. unfold type_char, TNIL. replace (vt p - 2424832 <? 23) with false by lia. rewrite andb_false_r. reflexivity.
Qed.
(** What goes wrong, for every function: *)
(** an optional parameter never receives a negative number (addresses are below 2^63):
    it receives its default; *)
Lemma number_letter vt k : letter vt (PN_NUM k) = 78.
Proof. unfold letter, type_of. rewrite PN_NUM_is_int. reflexivity. Qed.
Lemma not_young_receives vt mem hi STR0 req count i d a r c : demand vt d = Some c -> req <= i -> ~ young mem hi a ->
  receives vt mem hi STR0 req count i d a r -> missing STR0 d = Some r.
Proof.
  intros D Q Y R. unfold receives in R. rewrite D in R. destruct R as [[R _]|[(_ & _ & R & _)|(_ & _ & R)]]; auto; [lia|contradiction].
Qed.
Theorem C69_negative_refuted : forall is_str vt mem hi STR0 l self va, strings_are_objects is_str ->
  Forall (item_ok is_str) l -> plain_ends l -> zlen (params l) <= zlen va -> hi < two63 ->
  exists s rs, vm_proto is_str vt mem hi STR0 (Some (enc l)) self va = Ok (s, Some rs) /\
    forall j n d k c, nth_error (params l) j = Some (Param n d) -> nth_error va j = Some (PN_NUM k) ->
      required l <= Z.of_nat j -> demand vt d = Some c -> - two62 <= k < 0 ->
      nth_error rs j = missing STR0 d.
Proof.
  intros is_str vt mem hi STR0 l self va SO H PE L Hh.
  destruct (C69_call is_str vt mem hi STR0 l self va SO H PE L) as (rs & E & Lr & R).
  exists (if self <? 10 then 0 else self), rs. split; auto. intros j n d k c P1 P2 Q D K.
  destruct (nth_error rs j) as [r|] eqn:P3.
  2:{ exfalso. apply nth_error_None in P3. assert (nth_error (params l) j <> None) by congruence.
      apply nth_error_Some in H0. unfold zlen in Lr. lia. }
  symmetry. eapply not_young_receives; [exact D|exact Q| |exact (R j n d _ r P1 P2 P3)].
  unfold young, PN_IS_PTR. rewrite PN_NUM_is_int. cbn [negb andb]. rewrite PN_NUM_eq.
  unfold two62, two63, two64 in *. lia.
Qed.
(** nor an object that has outlived a collection (it lies outside the area of the newest
    objects); *)
Theorem C69_old_object_refuted : forall is_str vt mem hi STR0 l self va, strings_are_objects is_str ->
  Forall (item_ok is_str) l -> plain_ends l -> zlen (params l) <= zlen va ->
  exists s rs, vm_proto is_str vt mem hi STR0 (Some (enc l)) self va = Ok (s, Some rs) /\
    forall j n d a c, nth_error (params l) j = Some (Param n d) -> nth_error va j = Some a ->
      required l <= Z.of_nat j -> demand vt d = Some c -> PN_IS_PTR a = true -> ~ mem <= a <= hi ->
      nth_error rs j = missing STR0 d.
Proof.
  intros is_str vt mem hi STR0 l self va SO H PE L.
  destruct (C69_call is_str vt mem hi STR0 l self va SO H PE L) as (rs & E & Lr & R).
  exists (if self <? 10 then 0 else self), rs. split; auto. intros j n d a c P1 P2 Q D K N.
  destruct (nth_error rs j) as [r|] eqn:P3.
  2:{ exfalso. apply nth_error_None in P3. assert (nth_error (params l) j <> None) by congruence.
      apply nth_error_Some in H0. unfold zlen in Lr. lia. }
  symmetry. eapply not_young_receives; [exact D|exact Q| |exact (R j n d _ r P1 P2 P3)].
  unfold young. rewrite K. auto.
Qed.
(** an optional parameter of type I (integer) receives 0 whatever integer is passed; *)
Theorem C69_integer_refuted : forall is_str vt mem hi STR0 l self va, strings_are_objects is_str ->
  Forall (item_ok is_str) l -> plain_ends l -> zlen (params l) <= zlen va ->
  exists s rs, vm_proto is_str vt mem hi STR0 (Some (enc l)) self va = Ok (s, Some rs) /\
    forall j n k, nth_error (params l) j = Some (Param n (Typed (PN_NUM 73))) -> nth_error va j = Some (PN_NUM k) ->
      required l <= Z.of_nat j -> nth_error rs j = Some (PN_NUM 0).
Proof.
  intros is_str vt mem hi STR0 l self va SO H PE L.
  destruct (C69_call is_str vt mem hi STR0 l self va SO H PE L) as (rs & E & Lr & R).
  exists (if self <? 10 then 0 else self), rs. split; auto. intros j n k P1 P2 Q.
  destruct (nth_error rs j) as [r|] eqn:P3.
  2:{ exfalso. apply nth_error_None in P3. assert (nth_error (params l) j <> None) by congruence.
      apply nth_error_Some in H0. unfold zlen in Lr. lia. }
  specialize (R j n _ _ r P1 P2 P3). unfold receives in R. change (demand vt (Typed (PN_NUM 73))) with (Some 73) in R.
  rewrite number_letter in R. change (missing STR0 (Typed (PN_NUM 73))) with (Some (PN_NUM 0)) in R.
  destruct R as [[R _]|[(_ & _ & _ & [R|R] & _)|(_ & _ & R)]]; [lia|discriminate|discriminate|]. congruence.
Qed.
(** a receiver that is nil, false, true or one of the numbers 0 to 4 does not reach the
    function, and changes which arguments do; every other receiver reaches it; *)
Theorem C69_receiver_refuted : forall is_str vt mem hi STR0 l va, strings_are_objects is_str ->
  Forall (item_ok is_str) l -> plain_ends l -> zlen (params l) <= zlen va ->
  (forall self, 10 <= self -> exists rs, vm_proto is_str vt mem hi STR0 (Some (enc l)) self va = Ok (self, Some rs)) /\
  (forall self, In self [PN_NIL; PN_FALSE; PN_TRUE; PN_NUM 0; PN_NUM 1; PN_NUM 2; PN_NUM 3; PN_NUM 4] ->
     exists rs, vm_proto is_str vt mem hi STR0 (Some (enc l)) self va = Ok (PN_NIL, Some rs)).
Proof.
  intros is_str vt mem hi STR0 l va SO H PE L. split; intros self Hs;
    destruct (C69_call is_str vt mem hi STR0 l self va SO H PE L) as (rs & E & _); exists rs; rewrite E.
  - destruct (self <? 10) eqn:C; [lia|reflexivity].
  - assert (In self [0; 2; 6; 1; 3; 5; 7; 9]) as Hs' by exact Hs. clear Hs.
    destruct (self <? 10) eqn:C; [reflexivity|]. cbn in Hs'. lia.
Qed.
(** and a call with fewer arguments than parameters, as in the comment above the
    function, reads an argument that was not passed: undefined. *)
Theorem C69_short_call_refuted : forall is_str vt mem hi STR0 l self va, strings_are_objects is_str ->
  Forall (item_ok is_str) l -> plain_ends l -> zlen va < zlen (params l) ->
  vm_proto is_str vt mem hi STR0 (Some (enc l)) self va = UB.
Proof.
  intros is_str vt mem hi STR0 l self va SO H PE L. unfold vm_proto.
  rewrite C38_arity by auto. cbn [bind]. destruct (C38_minargs is_str l SO H) as [-> B]. cbn [bind].
  assert (G : forall k va i acc count, 0 <= i -> i + Z.of_nat k = zlen (params l) -> (length va < k)%nat ->
    args_loop is_str vt mem hi STR0 (enc l) (required l) count i k va acc = UB).
  { induction k as [|k IH]; intros va' i acc count Hi Lk Lv; [lia|]. cbn [args_loop]. destruct va' as [|a va']; auto.
    destruct (nth_error (params l) (Z.to_nat i)) as [x|] eqn:E.
    2:{ apply nth_error_None in E. unfold zlen in Lk. lia. }
    destruct (params_are _ _ _ E) as (n & d & ->).
    destruct (one_arg_receives is_str vt mem hi STR0 SO l i a _ count n d H PE Hi eq_refl E) as (r & -> & R). cbn [bind].
    apply IH; [lia|lia|cbn in Lv; lia]. }
  pose proof (zlen_nonneg (params l)).
  destruct (self <? 10); rewrite G; try reflexivity; unfold zlen in *; lia.
Qed.
(** A dots or bar behind an optional parameter without type is taken for its type, and
    the argument is replaced by nil. *)
Theorem C69_dots_refuted : exists is_str l self va, strings_are_objects is_str /\ Forall (item_ok is_str) l /\
  params l = [Param 65536 Plain; Param 65552 Plain] /\ va = [PN_NUM 5; PN_NUM 6] /\ 10 <= self /\
  vm_proto is_str (fun _ => 0) 65536 1000000 65568 (Some (enc l)) self va = Ok (self, Some [PN_NUM 5; PN_NIL]).
Proof.
  exists (fun v => (v =? 65536) || (v =? 65552)), [Param 65536 Plain; Bar; Param 65552 Plain; Dots], 65600, [PN_NUM 5; PN_NUM 6].
  repeat split.
  - intros v E. apply orb_prop in E. destruct E as [E|E]; apply Z.eqb_eq in E; subst; reflexivity.
  - repeat constructor.
  - discriminate.
Qed.

(** Example: (x=N | y=N, z:="s") called as f(P, f, obj, 3, 5, "t"), as f(P, f, 2, 3, 5, "t") —
    two arguments announced —, and with y = -5. *)
Definition ex_str (v : Z) : bool := (65536 <=? v) && (v <? 100000) && (v mod 16 =? 0).
Definition ex_l : list item :=
  [Param 65536 (Typed (PN_NUM 78)); Bar; Param 65552 (Typed (PN_NUM 78)); Param 65568 (Default 65600)].
Example C69_example_meets : strings_are_objects ex_str /\ Forall (item_ok ex_str) ex_l /\ plain_ends ex_l /\
  params ex_l = [Param 65536 (Typed (PN_NUM 78)); Param 65552 (Typed (PN_NUM 78)); Param 65568 (Default 65600)] /\ required ex_l = 1.
Proof.
  split; [|split; [|split; [|split; reflexivity]]].
  - intros v E. unfold ex_str in E. apply andb_prop in E. destruct E as [A B].
    unfold PN_IS_INT. change 1 with (Z.ones 1). rewrite Z.land_ones by lia. lia.
  - unfold ex_l. repeat constructor; discriminate.
  - intros pre n x post E. unfold ex_l in E.
    do 4 (destruct pre as [|? pre]; [discriminate|cbn [app] in E; injection E as _ E]). destruct pre; discriminate.
Qed.
Example C69_example :
  let vt := fun _ => 5 + TNIL in
  let call := fun self va => vm_proto ex_str vt 65536 1000000 65584 (Some (enc ex_l)) self va in
  call 70000 [PN_NUM 3; PN_NUM 5; 65616] = Ok (70000, Some [PN_NUM 3; PN_NUM 5; 65616]) /\
  call 2 [PN_NUM 3; PN_NUM 5; 65616] = Ok (0, Some [PN_NUM 3; PN_NUM 5; 65600]) /\
  call 70000 [PN_NUM (-3); PN_NUM (-5); 65616] = Ok (70000, Some [PN_NUM (-3); PN_NUM 0; 65616]).
Proof. repeat split. Qed.
