(** Properties C01, C02, C03: tagged value words. *)
From Coq Require Import ZifyBool.
From Verif Require Import Base WordModel WordProofs.
Ltac Zify.zify_post_hook ::= Z.div_mod_to_equations.

(** ** C01 *)

Theorem C01_box_unbox : forall i, -2^62 <= i < 2^62 -> PN_INT (PN_NUM i) = i.
Proof. intros i H. apply PN_INT_NUM, repb_spec. exact H. Qed.
Print Assumptions C01_box_unbox.

Theorem C01_box_wraps : forall i, exists k,
  PN_INT (PN_NUM i) = i + k * 2^63 /\ -2^62 <= PN_INT (PN_NUM i) < 2^62.
Proof.
  intros i. exists (- ((i + 2^62) / 2^63)). rewrite PN_INT_NUM_wrap.
  unfold two62, two63. lia.
Qed.
Print Assumptions C01_box_wraps.

Theorem C01_box_injective : forall i j, -2^62 <= i < 2^62 -> -2^62 <= j < 2^62 ->
  PN_NUM i = PN_NUM j -> i = j.
Proof. intros i j Hi Hj. apply PN_NUM_inj; apply repb_spec; assumption. Qed.
Print Assumptions C01_box_injective.

(** every odd word is the box of exactly the integer it unboxes to *)
Theorem C01_unbox_box : forall w, 0 <= w < 2^64 -> w mod 2 = 1 -> PN_NUM (PN_INT w) = w.
Proof. intros w H Ho. apply PN_NUM_INT; [exact H|]. rewrite PN_IS_INT_eq. lia. Qed.
Print Assumptions C01_unbox_box.

Example C01_instances : PN_NUM (-1) = 2^64 - 1 /\ PN_INT (PN_NUM (2^62 - 1)) = 2^62 - 1
  /\ PN_INT (PN_NUM (2^62)) = - 2^62.
Proof. repeat split. Qed.

(** ** C02 *)

(** Specification: the words that are values, by kind. *)
Inductive kind := KInteger | KBoolean | KNil | KPointer.
Definition denotes (w : Z) (k : kind) : Prop :=
  match k with
  | KInteger => exists i, -2^62 <= i < 2^62 /\ w = PN_NUM i
  | KBoolean => w = PN_FALSE \/ w = PN_TRUE
  | KNil => w = PN_NIL
  | KPointer => w mod 8 = 0 /\ 8 <= w < 2^64
  end.

(** no word has two kinds *)
Theorem C02_kinds_disjoint : forall w k1 k2, denotes w k1 -> denotes w k2 -> k1 = k2.
Proof.
  assert (Hi : forall i, PN_NUM i mod 2 = 1).
  { intros i. pose proof (PN_NUM_is_int i) as H. rewrite PN_IS_INT_eq in H. lia. }
  intros w [] [] H1 H2; cbn in H1, H2; try reflexivity; exfalso;
    repeat match goal with
           | H : exists i, _ |- _ => destruct H as (? & ? & ->)
           | H : context[PN_NUM ?i] |- _ => generalize (Hi i); intros; clear Hi
           end; unfold PN_NIL, PN_FALSE, PN_TRUE in *; lia.
Qed.
Print Assumptions C02_kinds_disjoint.

(** the run-time type test reports the kind; pointers report the type stored in
    the object they designate, whatever that heap contains *)
Theorem C02_type_reports_kind : forall fuel heap w,
  (denotes w KInteger -> potion_type fuel heap w = Ok PN_TNUMBER) /\
  (denotes w KBoolean -> potion_type fuel heap w = Ok PN_TBOOLEAN) /\
  (denotes w KNil -> potion_type fuel heap w = Ok PN_TNIL) /\
  (denotes w KPointer -> forall h, heap w = Some h -> h_vt h <> POTION_FWD ->
     potion_type (S fuel) heap w = Ok (h_vt h)).
Proof.
  intros fuel heap w. unfold potion_type. repeat split.
  - intros (i & Hi & ->). rewrite PN_NUM_is_int. reflexivity.
  - intros [-> | ->]; reflexivity.
  - intros H. cbn in H. subst w. reflexivity.
  - intros (Hm & Hr) h Hh Hv. rewrite PN_IS_INT_eq, PN_IS_BOOL_eq.
    replace (w mod 2 =? 1) with false by lia. replace (2 <=? w mod 4) with false by lia.
    unfold PN_IS_NIL, PN_NIL. replace (w =? 0) with false by lia.
    cbn [type_chase]. rewrite Hh. destruct (Z.eqb_spec (h_vt h) POTION_FWD); [contradiction|reflexivity].
Qed.
Print Assumptions C02_type_reports_kind.

(** [moved heap a b]: following zero or more "moved to" stubs from a leads to b, an
    object that has not moved *)
Inductive moved (heap : Z -> option hdr) : Z -> Z -> nat -> Prop :=
| moved_here : forall a h, heap a = Some h -> h_vt h <> POTION_FWD -> moved heap a a 0
| moved_on : forall a h b n, heap a = Some h -> h_vt h = POTION_FWD -> moved heap (h_ptr h) b n ->
    moved heap a b (S n).
(** ... and an object that has been moved keeps its type, however often it moved *)
Theorem C02_type_of_moved_object : forall heap w b n h, denotes w KPointer -> moved heap w b n ->
  heap b = Some h -> potion_type (S n) heap w = Ok (h_vt h).
Proof.
  intros heap w b n h (Hm & Hr) Hc Hb. unfold potion_type. rewrite PN_IS_INT_eq, PN_IS_BOOL_eq.
  replace (w mod 2 =? 1) with false by lia. replace (2 <=? w mod 4) with false by lia.
  unfold PN_IS_NIL, PN_NIL. replace (w =? 0) with false by lia. clear Hm Hr.
  induction Hc as [a h0 H0 N|a h0 b n H0 F C IH]; cbn [type_chase]; rewrite H0.
  - destruct (Z.eqb_spec (h_vt h0) POTION_FWD); congruence.
  - rewrite F, Z.eqb_refl. auto.
Qed.
Print Assumptions C02_type_of_moved_object.
(** ... and resolving the reference gives the object's present address *)
Theorem C02_resolve_moved_object : forall heap w b n, moved heap w b n ->
  (forall a h, heap a = Some h -> denotes a KPointer) -> potion_fwd (S n) heap w = Ok b.
Proof.
  intros heap w b n Hc Hk.
  assert (P : forall a h, heap a = Some h -> PN_IS_PTR a = true).
  { intros a h Ha. destruct (Hk a h Ha) as (Hm & Hr). unfold two64 in Hr. rewrite PN_IS_PTR_eq by (unfold two64; lia). lia. }
  induction Hc as [a h0 H0 N|a h0 b n H0 F C IH]; cbn [potion_fwd]; rewrite (P _ _ H0), H0.
  - destruct (Z.eqb_spec (h_vt h0) POTION_FWD); congruence.
  - rewrite F, Z.eqb_refl. auto.
Qed.
Print Assumptions C02_resolve_moved_object.
Example C02_moved_example :
  let heap := fun a => if a =? 64 then Some {| h_vt := POTION_FWD; h_ptr := 96 |}
              else if a =? 96 then Some {| h_vt := POTION_FWD; h_ptr := 128 |}
              else if a =? 128 then Some {| h_vt := PN_TTUPLE; h_ptr := 0 |} else None in
  moved heap 64 128 2 /\ potion_type 3 heap 64 = Ok PN_TTUPLE.
Proof.
  split; [|vm_compute; reflexivity].
  eapply moved_on; [reflexivity|reflexivity|]. eapply moved_on; [reflexivity|reflexivity|].
  eapply moved_here; [reflexivity|]. vm_compute. discriminate.
Qed.

(** PN_IS_PTR is exactly "is a pointer", PN_IS_INT exactly "is an integer", on values *)
Theorem C02_ptr_and_int_tests_exact : forall w k, denotes w k ->
  (PN_IS_PTR w = true <-> k = KPointer) /\ (PN_IS_INT w = true <-> k = KInteger) /\
  (PN_IS_NIL w = true <-> k = KNil).
Proof.
  assert (Hi : forall i, PN_NUM i mod 2 = 1).
  { intros i. pose proof (PN_NUM_is_int i) as H. rewrite PN_IS_INT_eq in H. lia. }
  intros w k H.
  assert (Hr : 0 <= w < two64).
  { destruct k; cbn in H.
    - destruct H as (i & _ & ->). apply PN_NUM_range.
    - unfold PN_FALSE, PN_TRUE, two64 in *; lia.
    - unfold PN_NIL, two64 in *; lia.
    - unfold two64; lia. }
  rewrite (PN_IS_PTR_eq w Hr), (PN_IS_INT_eq w). unfold PN_IS_NIL, PN_NIL.
  destruct k; cbn in H; [destruct H as (i & _ & ->); specialize (Hi i)| | |];
    unfold PN_NIL, PN_FALSE, PN_TRUE in *;
    repeat split; intros E; try discriminate; try reflexivity; lia.
Qed.
Print Assumptions C02_ptr_and_int_tests_exact.

(** The boolean test macro is NOT exact: it answers yes on odd integers (PN_NUM 1 & 2),
    so it may only be used after the integer test, as potion_type does. *)
Theorem C02_bool_test_exact_refuted : exists w, denotes w KInteger /\ PN_IS_BOOL w = true.
Proof. exists (PN_NUM 1). split; [exists 1; split; [lia|reflexivity] | reflexivity]. Qed.
Print Assumptions C02_bool_test_exact_refuted.

Example C02_instances : denotes 4096 KPointer /\ denotes PN_TRUE KBoolean /\ denotes (PN_NUM 0) KInteger.
Proof. split; [cbn; lia|]. split; [right; reflexivity | exists 0; split; [lia|reflexivity]]. Qed.

(** ** C03 *)

Theorem C03_only_nil_and_false_are_falsy : forall v, PN_TEST v = false <-> v = PN_NIL \/ v = PN_FALSE.
Proof. intros v. unfold PN_TEST, PN_NIL, PN_FALSE. lia. Qed.
Print Assumptions C03_only_nil_and_false_are_falsy.

Theorem C03_integers_truthy : forall i, PN_TEST (PN_NUM i) = true.
Proof.
  intros i. pose proof (PN_NUM_is_int i) as H. rewrite PN_IS_INT_eq in H.
  unfold PN_TEST, PN_FALSE, PN_NIL. lia.
Qed.
Print Assumptions C03_integers_truthy.

Theorem C03_not : forall v,
  (vm_not v = PN_TRUE <-> v = PN_NIL \/ v = PN_FALSE) /\
  (vm_not v = PN_FALSE <-> ~ (v = PN_NIL \/ v = PN_FALSE)) /\
  vm_not (vm_not v) = vm_test v.
Proof.
  intros v. rewrite <- C03_only_nil_and_false_are_falsy. unfold vm_not, vm_test.
  destruct (PN_TEST v); cbn; unfold PN_TRUE, PN_FALSE; repeat split; intuition (try discriminate; congruence).
Qed.
Print Assumptions C03_not.

Example C03_instances : PN_TEST (PN_NUM 0) = true /\ vm_not PN_NIL = PN_TRUE /\ vm_not (PN_NUM 0) = PN_FALSE.
Proof. repeat split. Qed.
