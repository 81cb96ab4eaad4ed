(** Property C65: yielding to a continuation makes [here] return again. *)
From Coq Require Import ZifyBool.
From Verif Require Import Base Arr ContModel.
Ltac Zify.zify_post_hook ::= Z.div_mod_to_equations.

(** ** Specification *)
Definition callee_saved : list rg := [RBX; R12; R13; R14; R15].
(** [m] is a state in which the call made in [m0] (the return address is on top of the
    stack) has returned [v]: execution goes on behind the call, with the stack pointer, the
    frame pointer, the callee-saved registers and the stack up to [base] as they were *)
Definition returned (m0 m : mach) (v base : Z) : Prop :=
  rip m = mem m0 (rgs m0 RSP) /\ rgs m RAX = v /\ rgs m RSP = rgs m0 RSP + 8 /\ rgs m RBP = rgs m0 RBP /\
  (forall q, In q callee_saved -> rgs m q = rgs m0 q) /\
  (forall x, rgs m0 RSP < x <= base -> x mod 8 = 0 -> mem m x = mem m0 x).
(** the words of the continuation object at [cc] for a stack part of [len] words *)
Definition intact (cc len : Z) (m m' : mach) : Prop :=
  forall j, 0 <= j < 9 + len -> mem m' (cont_stack cc + 8 * j) = mem m (cont_stack cc + 8 * j).

(** ** Registers *)
Lemma rg_eqb_refl r : rg_eqb r r = true. Proof. destruct r; reflexivity. Qed.
Lemma rg_eqb_eq a b : rg_eqb a b = true <-> a = b.
Proof. split; [destruct a, b; cbn; congruence|intros ->; apply rg_eqb_refl]. Qed.
Lemma setr_same m r v : rgs (setr m r v) r = v.
Proof. cbn. rewrite rg_eqb_refl. reflexivity. Qed.
Lemma setr_other m r v q : q <> r -> rgs (setr m r v) q = rgs m q.
Proof. intros N. cbn. destruct (rg_eqb q r) eqn:E; [apply rg_eqb_eq in E; contradiction|reflexivity]. Qed.
Lemma mem_setr m r v : mem (setr m r v) = mem m. Proof. reflexivity. Qed.
Lemma load_ok m a : a mod 8 = 0 -> load m a = Ok (mem m a).
Proof. intros H. unfold load. rewrite H. reflexivity. Qed.
Lemma store_ok m a v : a mod 8 = 0 -> store m a v = Ok (mkM (rgs m) (fun x => if x =? a then v else mem m x) (zf m) (rip m)).
Proof. intros H. unfold store. rewrite H. reflexivity. Qed.
Lemma w64_id x : 0 <= x < 18446744073709551616 -> w64 x = x.
Proof. intros. unfold w64. apply Z.mod_small. assumption. Qed.
Lemma exec_at f code pc o m : nth_error code pc = Some o ->
  exec (S f) code pc m = (do (m, t) <- step o m; exec f code (match t with Some t => t | None => S pc end) m).
Proof. intros H. cbn [exec]. rewrite H. reflexivity. Qed.

(** ** Copying *)
Lemma copy_words_ok : forall cnt m dst src, dst mod 8 = 0 -> src mod 8 = 0 ->
  (dst + 8 * Z.of_nat cnt <= src \/ src + 8 * Z.of_nat cnt <= dst) ->
  exists m', copy_words cnt m dst src = Ok m' /\ rgs m' = rgs m /\ rip m' = rip m /\
    (forall t, 0 <= t < Z.of_nat cnt -> mem m' (dst + 8 * t) = mem m (src + 8 * t)) /\
    (forall x, ~ (dst <= x < dst + 8 * Z.of_nat cnt) -> mem m' x = mem m x).
Proof.
  induction cnt as [|cnt IH]; intros m dst src D S J; cbn [copy_words].
  - exists m. split; [reflexivity|]. split; [reflexivity|]. split; [reflexivity|]. split; [intros; lia|auto].
  - rewrite load_ok by exact S. cbn [bind]. rewrite store_ok by exact D. cbn [bind].
    edestruct (IH (mkM (rgs m) (fun x => if x =? dst then mem m src else mem m x) (zf m) (rip m)) (dst + 8) (src + 8)) as (m' & E & R & P & C & F); [lia|lia|lia|].
    exists m'. split; [exact E|]. split; [exact R|]. split; [exact P|]. cbn [mem] in *. split.
    + intros t T. destruct (Z.eq_dec t 0) as [->|N].
      * rewrite F by lia. rewrite !Z.mul_0_r, !Z.add_0_r, Z.eqb_refl. reflexivity.
      * specialize (C (t - 1) ltac:(lia)). replace (dst + 8 + 8 * (t - 1)) with (dst + 8 * t) in C by lia.
        replace (src + 8 + 8 * (t - 1)) with (src + 8 * t) in C by lia. rewrite C.
        destruct (Z.eqb_spec (src + 8 * t) dst); [lia|reflexivity].
    + intros x X. rewrite F by lia. destruct (Z.eqb_spec x dst); [lia|reflexivity].
Qed.

(** ** here *)
(** the numbers of one continuation (user-space addresses, below 2^47): base of the machine stack, stack pointer and frame
    pointer in potion_callcc, object *)
Record frame_ok (sp1 sp2 sp3 cc : Z) : Prop := {
  f_order : 0 <= sp2 /\ sp2 < sp3 /\ sp3 + 8 <= sp1 /\ sp1 < 140737488355328;
  f_align : sp1 mod 8 = 0 /\ sp2 mod 8 = 0 /\ sp3 mod 8 = 0 /\ cc mod 8 = 0;
  f_cc : 0 <= cc < 140737488355328;
  (* the object of 16 + 8 * (9 + (sp1 - sp2) / 8) bytes does not overlap the stack *)
  f_apart : cc + 16 + 72 + (sp1 - sp2) <= sp2 \/ sp1 < cc }.
Definition words (sp1 sp2 : Z) : Z := (sp1 - sp2) / 8.

Ltac regs := repeat (rewrite setr_same || rewrite setr_other by congruence).

Lemma body_ok sp1 cc r m : frame_ok sp1 (rgs m RSP) (rgs m RBP) cc ->
  ~ In r (RSP :: RBP :: callee_saved) ->
  exists m', callcc_body sp1 cc r [] m = Ok m' /\
    rip m' = mem m (rgs m RBP + 8) /\ rgs m' RAX = cc /\ rgs m' RSP = rgs m RBP + 16 /\ rgs m' RBP = mem m (rgs m RBP) /\
    (forall q, In q callee_saved -> rgs m' q = rgs m q) /\
    (forall x, ~ (cont_stack cc <= x < cont_stack cc + 72 + (sp1 - rgs m RSP)) -> mem m' x = mem m x) /\
    let W j := mem m' (cont_stack cc + 8 * j) in
    W 0 = sp1 /\ W 1 = rgs m RSP /\ W 2 = rgs m RBP /\ W 3 = 0 /\ W 4 = rgs m RBX /\ W 5 = rgs m R12 /\ W 6 = rgs m R13 /\ W 7 = rgs m R14 /\ W 8 = rgs m R15 /\
    forall t, 1 <= t <= words sp1 (rgs m RSP) -> W (8 + t) = mem m (rgs m RSP + 8 * t).
Proof.
  intros [(O1 & O2 & O3 & O4) (A1 & A2 & A3 & A4) (C1 & C2) D] NR. unfold cont_stack. set (sp2 := rgs m RSP) in *. set (sp3 := rgs m RBP) in *.
  assert (N1 : r <> RBX /\ r <> R12 /\ r <> R13 /\ r <> R14 /\ r <> R15 /\ r <> RSP /\ r <> RBP).
  { cbn in NR. intuition congruence. }
  destruct N1 as (n1 & n2 & n3 & n4 & n5 & n6 & n7).
  unfold callcc_body. fold sp2 sp3. cbv zeta. replace ((sp1 - sp2) / 8 + 1 <? 0) with false by lia. unfold store4, cont_stack.
  do 4 (rewrite store_ok by lia; cbn [bind]). cbn [rgs mem zf rip].
  unfold save_code.
  do 5 (erewrite exec_at by reflexivity; cbn [step bind]; rewrite w64_id by (cbn [rgs]; rewrite setr_same; cbn [rgs]; lia);
        rewrite store_ok by (cbn [rgs]; rewrite setr_same; cbn [rgs]; lia); cbn [bind rgs mem zf rip]).
  cbn [exec nth_error bind]. regs. cbn [rgs].
  match goal with |- context [copy_words ?c ?mm ?dst ?src] => set (m3 := mm); destruct (copy_words_ok c m3 dst src ltac:(lia) ltac:(lia)) as (m4 & E4 & R4 & P4 & C4 & F4); [lia|] end.
  rewrite E4. cbn [bind length map app Nat.add]. clear E4.
  erewrite exec_at by reflexivity. cbn [step]. rewrite setr_other by congruence. rewrite R4. 
  assert (RM : forall q, q <> r -> rgs m3 q = rgs m q). { intros q Q. unfold m3. cbn [rgs]. rewrite setr_other by exact Q. reflexivity. }
  rewrite RM by congruence. fold sp3. rewrite load_ok by exact A3. cbn [bind].
  erewrite exec_at by reflexivity. cbn [step]. rewrite setr_same. rewrite w64_id by lia. rewrite load_ok by lia. cbn [bind].
  cbn [exec nth_error]. eexists. split; [reflexivity|]. cbn [rip mem]. rewrite w64_id by lia.
  assert (ST : forall x, cc + 16 <= x -> x < cc + 88 -> mem m4 x = mem m3 x) by (intros; apply F4; lia).
  assert (FR : forall x, ~ (cc + 16 <= x < cc + 16 + 72 + (sp1 - sp2)) -> mem m4 x = mem m x).
  { intros x X. rewrite F4 by lia. unfold m3. cbn [mem]. rewrite ?mem_setr. cbn [mem]. rewrite ?setr_same.
    repeat match goal with |- context [x =? ?a] => destruct (Z.eqb_spec x a); [lia|] end. reflexivity. }
  cbn [mem setr]. split; [apply FR; lia|]. split; [reflexivity|]. split; [cbn; lia|]. split; [cbn; apply FR; lia|].
  split. { intros q Q. assert (q <> RAX /\ q <> RSP /\ q <> RBP /\ q <> r) by (cbn in Q; intuition congruence). destruct H as (q1 & q2 & q3 & q4).
    assert (EB : forall b, q <> b -> rg_eqb q b = false) by (intros b B; destruct (rg_eqb q b) eqn:X; [apply rg_eqb_eq in X; contradiction|reflexivity]).
    cbn [rgs setr]. rewrite !EB by assumption. rewrite R4. apply RM, q4. }
  split; [exact FR|]. cbv zeta.
  assert (M3 : forall j, 0 <= j <= 8 -> mem m4 (cc + 16 + 8 * j) = mem m3 (cc + 16 + 8 * j)) by (intros; apply ST; lia).
  assert (CP : forall t, 1 <= t <= words sp1 sp2 -> mem m4 (cc + 16 + 8 * (8 + t)) = mem m (sp2 + 8 * t)).
  { intros t T. unfold words in T. specialize (C4 (t - 1) ltac:(lia)). replace (cc + 16 + 8 * (8 + t)) with (cc + 16 + 8 * 9 + 8 * (t - 1)) by lia. rewrite C4.
    replace (sp2 + 8 + 8 * (t - 1)) with (sp2 + 8 * t) by lia.
    unfold m3. cbn [mem]. rewrite ?mem_setr. cbn [mem].
    repeat match goal with |- context [?x =? ?a] => destruct (Z.eqb_spec x a); [lia|] end. reflexivity. }
  repeat match goal with |- _ /\ _ => split end; try exact CP;
   (rewrite M3 by lia; unfold m3; cbn [mem]; rewrite ?mem_setr; cbn [mem];
    repeat match goal with |- context [?x =? ?a] => destruct (Z.eqb_spec x a); [try lia|try lia] end; cbn [rgs]; rewrite ?setr_other by congruence; try reflexivity; lia).
Qed.

(** ** yield *)
Section Yield.
Context (sp1 sp2 sp3 cc : Z) (r0 r1 r2 : rg) (m0 : mach).
Hypothesis F : frame_ok sp1 sp2 sp3 cc.
(** the operand registers the compiler may choose: the three differ, and are none of those
    in the clobber list or of the frame *)
Hypothesis NR : NoDup [r0; r1; r2; RAX; RBX; RSP; RBP].
Let st := cont_stack cc.
Let L := words sp1 sp2.
(** memory with the first [i] words of the stack part put back *)
Let put_back (i x : Z) : Z :=
  if (sp2 <? x) && (x <=? sp2 + 8 * i) && (x mod 8 =? 0) then mem m0 (st + 64 + (x - sp2)) else mem m0 x.

Lemma loop_ok : forall rest f i m, Z.of_nat rest = L - i -> 0 <= i < L ->
  rgs m r0 = sp2 + 8 * i -> rgs m r1 = sp1 -> rgs m r2 = st + 72 + 8 * i -> (forall x, mem m x = put_back i x) ->
  exists m', exec (6 * rest + f) (yield_code r0 r1 r2) 4 m = exec f (yield_code r0 r1 r2) 10 m' /\
    (forall x, mem m' x = put_back L x) /\ rip m' = rip m /\
    forall q, q <> RAX -> q <> r0 -> q <> r2 -> rgs m' q = rgs m q.
Proof.
  pose proof F as [(O1 & O2 & O3 & O4) (A1 & A2 & A3 & A4) (C1 & C2) D]. unfold st, cont_stack, L, words in *.
  assert (NE : r0 <> r1 /\ r0 <> r2 /\ r1 <> r2 /\ r0 <> RAX /\ r1 <> RAX /\ r2 <> RAX).
  { inversion_clear NR as [|? ? X1 N1]. inversion_clear N1 as [|? ? X2 N2]. inversion_clear N2 as [|? ? X3 N3]. cbn in X1, X2, X3. intuition congruence. }
  destruct NE as (n1 & n2 & n3 & n4 & n5 & n6).
  induction rest as [|rest IH]; intros f i m R I E0 E1 E2 M; [lia|]. unfold st, cont_stack, L, words in R, I, E2.
  replace (6 * S rest + f)%nat with (S (S (S (S (S (S (6 * rest + f))))))) by lia.
  erewrite exec_at by reflexivity. cbn [step]. rewrite E2, w64_id, load_ok by lia. cbn [bind].
  erewrite exec_at by reflexivity. cbn [step bind]. rewrite setr_other by congruence. rewrite E0, w64_id by lia.
  erewrite exec_at by reflexivity. cbn [step]. rewrite setr_same, w64_id, store_ok by lia. cbn [bind]. rewrite Z.add_0_r.
  erewrite exec_at by reflexivity. cbn [step bind].
  match goal with |- context [mkM ?a ?b ?c ?d] => set (m2 := mkM a b c d) end.
  assert (R2 : rgs m2 r2 = st + 72 + 8 * i) by (unfold m2; cbn [rgs]; rewrite !setr_other by congruence; exact E2).
  unfold st, cont_stack in R2. rewrite R2, w64_id by lia.
  erewrite exec_at by reflexivity. cbn [step bind]. set (m3 := setr m2 r2 (cc + 16 + 72 + 8 * i + 8)).
  assert (R0 : rgs m3 r0 = sp2 + 8 * i + 8) by (unfold m3; rewrite setr_other by congruence; unfold m2; cbn [rgs]; rewrite setr_same; reflexivity).
  assert (R1 : rgs m3 r1 = sp1) by (unfold m3; rewrite setr_other by congruence; unfold m2; cbn [rgs]; rewrite !setr_other by congruence; exact E1).
  rewrite R0, R1.
  erewrite exec_at by reflexivity. cbn [step bind zf].
  match goal with |- context [exec (6 * rest + f) _ _ ?x] => set (m4 := x) end.
  assert (M4 : forall x, mem m4 x = put_back (i + 1) x).
  { intros x. unfold m4, m3, m2. cbn [mem]. rewrite mem_setr. cbn [mem]. rewrite !mem_setr, setr_other, setr_same by congruence. rewrite !M. unfold put_back, st, cont_stack. rewrite ?Z.add_0_r.
    replace ((sp2 <? cc + 16 + 72 + 8 * i) && (cc + 16 + 72 + 8 * i <=? sp2 + 8 * i) && ((cc + 16 + 72 + 8 * i) mod 8 =? 0)) with false by lia.
    destruct (Z.eqb_spec x (sp2 + 8 * i + 8)) as [->|N].
    - replace ((sp2 <? sp2 + 8 * i + 8) && (sp2 + 8 * i + 8 <=? sp2 + 8 * (i + 1)) && ((sp2 + 8 * i + 8) mod 8 =? 0)) with true by lia.
      cbv iota. f_equal. lia.
    - replace ((sp2 <? x) && (x <=? sp2 + 8 * (i + 1)) && (x mod 8 =? 0)) with ((sp2 <? x) && (x <=? sp2 + 8 * i) && (x mod 8 =? 0)) by lia. reflexivity. }
  assert (RG : forall q, q <> RAX -> q <> r0 -> q <> r2 -> rgs m4 q = rgs m q).
  { intros q Q1 Q2 Q3. unfold m4, m3, m2. cbn [rgs]. rewrite setr_other by exact Q3. cbn [rgs]. rewrite !setr_other by assumption. reflexivity. }
  destruct (Z.eqb_spec (sp2 + 8 * i + 8) sp1) as [Q|Q].
  - assert (rest = 0)%nat by lia. subst rest. exists m4. split; [reflexivity|].
    split; [|split; [reflexivity|exact RG]]. intros x. rewrite M4. f_equal. lia.
  - destruct (IH f (i + 1) m4) as (m' & E & Mm & P & RR); [lia|lia| | | |exact M4|].
    + unfold m4. cbn [rgs]. rewrite R0. lia.
    + unfold m4. cbn [rgs]. exact R1.
    + unfold m4, m3. cbn [rgs]. rewrite setr_same. lia.
    + exists m'. split; [exact E|]. split; [exact Mm|]. split; [rewrite P; reflexivity|].
      intros q Q1 Q2 Q3. rewrite RR by assumption. apply RG; assumption.
Qed.
End Yield.

(** what [yield] does to a state whose continuation object holds the words [W] *)
Lemma yield_ok sp1 sp2 sp3 cc r0 r1 r2 m : frame_ok sp1 sp2 sp3 cc -> NoDup [r0; r1; r2; RAX; RBX; RSP; RBP] ->
  let W j := mem m (cont_stack cc + 8 * j) in W 0 = sp1 -> W 1 = sp2 -> W 2 = sp3 ->
  let T x := W (8 + (x - sp2) / 8) in
  exists fuel m', yield fuel sp1 cc r0 r1 r2 m = Ok (Some m') /\
    rip m' = T (sp3 + 8) /\ rgs m' RAX = cc /\ rgs m' RSP = sp3 + 16 /\ rgs m' RBP = T sp3 /\
    rgs m' RBX = W 4 /\ rgs m' R12 = W 5 /\ rgs m' R13 = W 6 /\ rgs m' R14 = W 7 /\ rgs m' R15 = W 8 /\
    forall x, mem m' x = if x =? cont_stack cc + 24 then 0 else if (sp2 <? x) && (x <=? sp1) && (x mod 8 =? 0) then T x else mem m x.
Proof.
  intros F NR W W0 W1 W2 T. pose proof F as [(O1 & O2 & O3 & O4) (A1 & A2 & A3 & A4) (C1 & C2) D]. unfold W, cont_stack in *. rewrite Z.mul_0_r, Z.add_0_r in W0.
  set (L := words sp1 sp2). assert (LL : 8 * L = sp1 - sp2 /\ 1 <= L) by (unfold L, words; lia).
  assert (NE : r0 <> r1 /\ r0 <> r2 /\ r1 <> r2 /\ r0 <> RAX /\ r1 <> RAX /\ r2 <> RAX /\ r0 <> RBX /\ r1 <> RBX /\ r2 <> RBX /\ r0 <> RSP /\ r1 <> RSP /\ r2 <> RSP /\ r0 <> RBP /\ r1 <> RBP /\ r2 <> RBP).
  { clear -NR. inversion_clear NR as [|? ? X1 N1]. inversion_clear N1 as [|? ? X2 N2]. inversion_clear N2 as [|? ? X3 N3]. cbn in X1, X2, X3. intuition congruence. }
  destruct NE as (n1 & n2 & n3 & n4 & n5 & n6 & n7 & n8 & n9 & n10 & n11 & n12 & n13 & n14 & n15).
  exists (4 + (6 * Z.to_nat L + 10))%nat. unfold yield, cont_stack. rewrite !load_ok by lia. cbn [bind]. rewrite W0, Z.eqb_refl. cbn [negb].
  change 8 with (8 * 1) at 1. rewrite W1. rewrite store_ok by lia. cbn [bind].
  match goal with |- context [exec _ _ _ ?x] => set (ma := x) end.
  assert (Ra : rgs ma r2 = cc + 16) by (unfold ma; apply setr_same).
  assert (Rb : rgs ma r1 = sp1) by (unfold ma; rewrite setr_other by congruence; apply setr_same).
  assert (Rc : rgs ma r0 = sp2) by (unfold ma; rewrite !setr_other by congruence; apply setr_same).
  assert (Ma : forall x, mem ma x = if x =? cc + 16 + 24 then cc else mem m x) by reflexivity.
  cbn [Nat.add].
  erewrite exec_at by reflexivity. cbn [step]. rewrite Ra, w64_id, load_ok by lia. cbn [bind].
  erewrite exec_at by reflexivity. cbn [step]. rewrite setr_other, Ra, w64_id, load_ok by (congruence || lia). cbn [bind].
  erewrite exec_at by reflexivity. cbn [step bind]. rewrite !setr_other, Ra by congruence.
  erewrite exec_at by reflexivity. cbn [step bind]. rewrite !setr_other, Ra, w64_id by (congruence || lia).
  match goal with |- context [exec _ _ _ ?x] => set (mb := x) end.
  assert (Mb : forall x, mem mb x = if x =? cc + 16 + 24 then cc else mem m x) by reflexivity.
  assert (Sb : rgs mb RSP = sp2).
  { unfold mb. rewrite !setr_other by congruence. rewrite setr_same, Ma. destruct (Z.eqb_spec (cc + 16 + 8) (cc + 16 + 24)); [lia|exact W1]. }
  assert (Bb : rgs mb RBP = sp3).
  { unfold mb. rewrite !setr_other by congruence. rewrite setr_same, mem_setr, Ma. destruct (Z.eqb_spec (cc + 16 + 16) (cc + 16 + 24)); [lia|exact W2]. }
  assert (Xb : rgs mb RBX = cc + 16) by (unfold mb; rewrite setr_other by congruence; apply setr_same).
  destruct (loop_ok sp1 sp2 sp3 cc r0 r1 r2 mb F NR (Z.to_nat L) 10 0 mb) as (mc & Ec & Mc & Pc & Rq).
  { unfold L. unfold L in LL. lia. }
  { unfold L in LL. lia. }
  { unfold mb. rewrite !setr_other by congruence. rewrite Rc. lia. }
  { unfold mb. rewrite !setr_other by congruence. exact Rb. }
  { unfold mb, cont_stack. rewrite setr_same. lia. }
  { intros x. replace ((sp2 <? x) && (x <=? sp2 + 8 * 0) && (x mod 8 =? 0)) with false by lia. reflexivity. }
  rewrite Ec. clear Ec.
  assert (Xc : rgs mc RBX = cc + 16) by (rewrite Rq by congruence; exact Xb).
  assert (Bc : rgs mc RBP = sp3) by (rewrite Rq by congruence; exact Bb).
  assert (Md : forall x, mem mc x = if (sp2 <? x) && (x <=? sp1) && (x mod 8 =? 0) then T x else if x =? cc + 16 + 24 then cc else mem m x).
  { intros x. rewrite Mc. replace (sp2 + 8 * words sp1 sp2) with sp1 by (unfold L in LL; lia).
    destruct ((sp2 <? x) && (x <=? sp1) && (x mod 8 =? 0)) eqn:B; [|apply Mb]. unfold cont_stack. rewrite Mb. unfold T, W.
    destruct (Z.eqb_spec (cc + 16 + 64 + (x - sp2)) (cc + 16 + 24)); [lia|]. f_equal. lia. }
  assert (Wc : forall j, 0 <= j <= 8 -> j <> 3 -> mem mc (cc + 16 + 8 * j) = W j).
  { intros j J N. rewrite Md. replace ((sp2 <? cc + 16 + 8 * j) && (cc + 16 + 8 * j <=? sp1) && ((cc + 16 + 8 * j) mod 8 =? 0)) with false by lia.
    destruct (Z.eqb_spec (cc + 16 + 8 * j) (cc + 16 + 24)); [lia|reflexivity]. }
  erewrite exec_at by reflexivity. cbn [step]. rewrite Xc, w64_id, load_ok by lia. cbn [bind].
  erewrite exec_at by reflexivity. cbn [step]. rewrite setr_other, Xc, w64_id, store_ok by (congruence || lia). cbn [bind].
  set (md := mkM _ _ _ _).
  assert (Xd : rgs md RBX = cc + 16) by (unfold md; cbn [rgs]; rewrite setr_other by congruence; exact Xc).
  assert (Wd : forall j, 0 <= j <= 8 -> j <> 3 -> mem md (cc + 16 + 8 * j) = W j).
  { intros j J N. unfold md. cbn [mem]. destruct (Z.eqb_spec (cc + 16 + 8 * j) (cc + 16 + 24)); [lia|]. rewrite mem_setr. auto. }
  pose proof (Wd 4 ltac:(lia) ltac:(lia)) as V4. pose proof (Wd 5 ltac:(lia) ltac:(lia)) as V5. pose proof (Wd 6 ltac:(lia) ltac:(lia)) as V6.
  pose proof (Wd 7 ltac:(lia) ltac:(lia)) as V7. pose proof (Wd 8 ltac:(lia) ltac:(lia)) as V8.
  erewrite exec_at by reflexivity. cbn [step]. rewrite Xd, w64_id, load_ok by lia. cbn [bind]. change (cc + 16 + 40) with (cc + 16 + 8 * 5). rewrite V5.
  erewrite exec_at by reflexivity. cbn [step]. rewrite setr_other, Xd, w64_id, load_ok by (congruence || lia). cbn [bind]. rewrite mem_setr. change (cc + 16 + 48) with (cc + 16 + 8 * 6). rewrite V6.
  erewrite exec_at by reflexivity. cbn [step]. rewrite !setr_other, Xd, w64_id, load_ok by (congruence || lia). cbn [bind]. rewrite !mem_setr. change (cc + 16 + 56) with (cc + 16 + 8 * 7). rewrite V7.
  erewrite exec_at by reflexivity. cbn [step]. rewrite !setr_other, Xd, w64_id, load_ok by (congruence || lia). cbn [bind]. rewrite !mem_setr. change (cc + 16 + 64) with (cc + 16 + 8 * 8). rewrite V8.
  erewrite exec_at by reflexivity. cbn [step]. rewrite !setr_other, Xd, w64_id, load_ok by (congruence || lia). cbn [bind]. rewrite !mem_setr. change (cc + 16 + 32) with (cc + 16 + 8 * 4). rewrite V4.
  assert (Bd : rgs md RBP = sp3) by (unfold md; cbn [rgs]; rewrite setr_other by congruence; exact Bc).
  assert (Mm : forall x, mem md x = if x =? cc + 16 + 24 then 0 else if (sp2 <? x) && (x <=? sp1) && (x mod 8 =? 0) then T x else mem m x).
  { intros x. unfold md. cbn [mem]. destruct (Z.eqb_spec x (cc + 16 + 24)) as [->|N]; [reflexivity|]. rewrite mem_setr, Md. destruct (_ && _); [reflexivity|].
    destruct (Z.eqb_spec x (cc + 16 + 24)); [contradiction|reflexivity]. }
  assert (Am : rgs md RAX = cc).
  { unfold md. cbn [rgs]. rewrite setr_same, Md. replace ((sp2 <? cc + 16 + 24) && (cc + 16 + 24 <=? sp1) && ((cc + 16 + 24) mod 8 =? 0)) with false by lia. rewrite Z.eqb_refl. reflexivity. }
  erewrite exec_at by reflexivity. cbn [step]. rewrite !setr_other, Bd, load_ok by (congruence || lia). cbn [bind]. rewrite !mem_setr.
  rewrite w64_id by lia.
  erewrite exec_at by reflexivity. cbn [step]. rewrite setr_same, load_ok by lia. cbn [bind]. rewrite w64_id by lia.
  cbn [exec nth_error bind]. eexists. split; [reflexivity|]. cbn [rip mem rgs]. rewrite !mem_setr.
  assert (TS : mem md sp3 = T sp3 /\ mem md (sp3 + 8) = T (sp3 + 8)).
  { rewrite !Mm. replace ((sp2 <? sp3) && (sp3 <=? sp1) && (sp3 mod 8 =? 0)) with true by lia.
    replace ((sp2 <? sp3 + 8) && (sp3 + 8 <=? sp1) && ((sp3 + 8) mod 8 =? 0)) with true by lia.
    destruct (Z.eqb_spec sp3 (cc + 16 + 24)); [lia|]. destruct (Z.eqb_spec (sp3 + 8) (cc + 16 + 24)); [lia|]. split; reflexivity. }
  destruct TS as [TS1 TS2]. split; [exact TS2|]. 
  assert (P : forall x y, rg_eqb RAX x = y -> rg_eqb RAX x = y) by auto.
  cbn [rgs setr rg_eqb]. split; [exact Am|]. split; [lia|]. split; [exact TS1|]. do 5 (split; [reflexivity|]). exact Mm.
Qed.

(** ** The theorems *)
(** A call of [here] in state [m0]: the prologue of potion_callcc with [frame] bytes of
    locals, then its C code up to the inline assembly, which leaves the stack pointer, the
    frame pointer, the callee-saved registers and the stack from the saved frame pointer
    on alone (it is a C function that needs no callee-saved register). *)
Record called (m0 m2 : mach) (frame : Z) : Prop := {
  c_room : 8 + frame <= rgs m0 RSP < 140737488355328 /\ 0 <= frame /\ rgs m0 RSP mod 8 = 0;
  c_m1 : exists m1, exec 5 (prologue frame) 0 m0 = Ok m1 /\ rgs m2 RSP = rgs m1 RSP /\ rgs m2 RBP = rgs m1 RBP /\
           (forall q, In q callee_saved -> rgs m2 q = rgs m1 q) /\ (forall x, rgs m1 RBP <= x -> mem m2 x = mem m1 x) }.
Lemma called_ok m0 m2 frame : called m0 m2 frame ->
  rgs m2 RSP = rgs m0 RSP - 8 - frame /\ rgs m2 RBP = rgs m0 RSP - 8 /\ mem m2 (rgs m2 RBP) = rgs m0 RBP /\
  (forall q, In q callee_saved -> rgs m2 q = rgs m0 q) /\ (forall x, rgs m0 RSP <= x -> mem m2 x = mem m0 x).
Proof.
  intros [(R1 & R2 & R3) (m1 & E & S & B & C & M)]. unfold prologue in E.
  erewrite exec_at in E by reflexivity. cbn [step] in E. rewrite w64_id, store_ok in E by lia. cbn [bind] in E.
  erewrite exec_at in E by reflexivity. cbn [step bind] in E. rewrite setr_same in E.
  erewrite exec_at in E by reflexivity. cbn [step bind] in E. rewrite setr_other, setr_same, w64_id in E by (congruence || lia).
  cbn [exec nth_error] in E. injection E as <-. cbn [rgs setr rg_eqb mem] in *. split; [lia|]. split; [lia|].
  split. { rewrite M by lia. rewrite B. destruct (Z.eqb_spec (rgs m0 RSP - 8) (rgs m0 RSP - 8)); [reflexivity|lia]. }
  split. { intros q Q. rewrite C by exact Q. cbn in Q. intuition subst; reflexivity. }
  intros x X. rewrite M by lia. destruct (Z.eqb_spec x (rgs m0 RSP - 8)); [lia|reflexivity].
Qed.

Section Here.
Context (m0 m2 : mach) (frame sp1 cc : Z) (r : rg).
Hypothesis CL : called m0 m2 frame.
Hypothesis FR : frame_ok sp1 (rgs m2 RSP) (rgs m2 RBP) cc.
Hypothesis NR : ~ In r (RSP :: RBP :: callee_saved).
Let L := words sp1 (rgs m2 RSP).

Lemma here_ok : exists m3, callcc_body sp1 cc r [] m2 = Ok m3 /\ returned m0 m3 cc sp1 /\
  (forall x, ~ (cc + 16 <= x < cc + 16 + 8 * (9 + L)) -> mem m3 x = mem m2 x) /\
  let W j := mem m3 (cont_stack cc + 8 * j) in
    W 0 = sp1 /\ W 1 = rgs m2 RSP /\ W 2 = rgs m2 RBP /\ W 3 = 0 /\ W 4 = rgs m0 RBX /\ W 5 = rgs m0 R12 /\ W 6 = rgs m0 R13 /\ W 7 = rgs m0 R14 /\ W 8 = rgs m0 R15 /\
    forall t, 1 <= t <= L -> W (8 + t) = mem m2 (rgs m2 RSP + 8 * t).
Proof.
  destruct (called_ok _ _ _ CL) as (S & B & MB & Q & M). pose proof (c_room _ _ _ CL) as (R1 & R2 & R3).
  destruct (body_ok sp1 cc r m2 FR NR) as (m3 & E & P & A & SP & BP & RQ & MM & W). exists m3. split; [exact E|].
  pose proof FR as [(O1 & O2 & O3 & O4) (A1 & A2 & A3 & A4) (C1 & C2) D].
  assert (LL : 8 * L = sp1 - rgs m2 RSP) by (unfold L, words; lia).
  split.
  { split; [rewrite P, B, M by lia; f_equal; lia|]. split; [exact A|]. split; [lia|]. split; [rewrite BP; exact MB|].
    split; [intros q Qq; rewrite RQ by exact Qq; apply Q, Qq|]. intros x X X8. rewrite MM by (unfold cont_stack; lia). apply M. lia. }
  split. { intros x X. apply MM. unfold cont_stack. lia. }
  cbv zeta in *. rewrite <- (Q RBX), <- (Q R12), <- (Q R13), <- (Q R14), <- (Q R15) by (cbn; tauto). exact W.
Qed.

(** [here] returns a continuation; it writes nothing but the words of the new object, all
    of which lie in the block that was asked for *)
Theorem C65_here_returns_a_continuation :
  exists m3, callcc_body sp1 cc r [] m2 = Ok m3 /\ returned m0 m3 cc sp1 /\
    (forall x, ~ (cc + 16 <= x < cc + 16 + 8 * ((sp1 - rgs m2 RSP) / 8 + 1 + 3 + 5)) -> mem m3 x = mem m2 x).
Proof.
  destruct here_ok as (m3 & E & R & M & _). exists m3. split; [exact E|]. split; [exact R|]. intros x X. apply M. unfold L, words. lia.
Qed.

(** the states of a run after [here] returned: the program runs on without writing to the
    continuation, or yields to it *)
Inductive later (m3 : mach) : mach -> Prop :=
| later_here : later m3 m3
| later_run m m' : later m3 m -> intact cc L m m' -> later m3 m'
| later_yield m r0 r1 r2 fuel m' : later m3 m -> NoDup [r0; r1; r2; RAX; RBX; RSP; RBP] ->
    yield fuel sp1 cc r0 r1 r2 m = Ok (Some m') -> later m3 m'.
Lemma exec_mono code : forall f pc m m', exec f code pc m = Ok m' -> forall g, (f <= g)%nat -> exec g code pc m = Ok m'.
Proof.
  induction f as [|f IH]; intros pc m m' E g G; [discriminate|]. destruct g as [|g]; [lia|]. cbn [exec] in *.
  destruct (nth_error code pc) as [o|]; [|exact E]. destruct (step o m) as [[m1 t]| |]; cbn [bind] in *; try discriminate. apply (IH _ _ _ E). lia.
Qed.
Lemma yield_det f g m r0 r1 r2 a b : yield f sp1 cc r0 r1 r2 m = Ok a -> yield g sp1 cc r0 r1 r2 m = Ok b -> a = b.
Proof.
  unfold yield. destruct (load m (cont_stack cc)) as [x| |]; cbn [bind]; try discriminate. destruct (load m (cont_stack cc + 8)) as [y| |]; cbn [bind]; try discriminate.
  destruct (negb (sp1 =? x)); [congruence|]. destruct (store m (cont_stack cc + 24) cc) as [z| |]; cbn [bind]; try discriminate.
  match goal with |- context [exec f _ _ ?mm] => generalize mm end. intros mm.
  destruct (exec f (yield_code r0 r1 r2) 0 mm) as [u| |] eqn:E; cbn [bind]; try discriminate.
  destruct (exec g (yield_code r0 r1 r2) 0 mm) as [v| |] eqn:G; cbn [bind]; try discriminate.
  apply (exec_mono _ _ _ _ _) with (g := Nat.max f g) in E; [|lia]. apply (exec_mono _ _ _ _ _) with (g := Nat.max f g) in G; [|lia]. congruence.
Qed.
Lemma yield_again m3 m : callcc_body sp1 cc r [] m2 = Ok m3 -> intact cc L m3 m ->
  forall r0 r1 r2, NoDup [r0; r1; r2; RAX; RBX; RSP; RBP] ->
  exists fuel m', yield fuel sp1 cc r0 r1 r2 m = Ok (Some m') /\ returned m0 m' cc sp1 /\ intact cc L m3 m' /\
    (forall x, (x < rgs m2 RSP + 8 \/ sp1 < x \/ x mod 8 <> 0) -> x <> cont_stack cc + 24 -> mem m' x = mem m x).
Proof.
  intros E3 I r0 r1 r2 ND. destruct here_ok as (m3' & E & _ & _ & W). rewrite E3 in E. injection E as <-. cbv zeta in W.
  destruct W as (W0 & W1 & W2 & W3 & W4 & W5 & W6 & W7 & W8 & WT).
  destruct (called_ok _ _ _ CL) as (S & B & MB & Q & M). pose proof (c_room _ _ _ CL) as (R1 & R2 & R3).
  pose proof FR as [(O1 & O2 & O3 & O4) (A1 & A2 & A3 & A4) (C1 & C2) D].
  assert (LL : 8 * L = sp1 - rgs m2 RSP /\ 1 <= L) by (unfold L, words; lia).
  assert (IW : forall j, 0 <= j < 9 + L -> mem m (cont_stack cc + 8 * j) = mem m3 (cont_stack cc + 8 * j)) by exact I.
  destruct (yield_ok sp1 (rgs m2 RSP) (rgs m2 RBP) cc r0 r1 r2 m FR ND) as (fuel & m' & EY & P & A & SP & BP & Y4 & Y5 & Y6 & Y7 & Y8 & YM);
    [rewrite IW by lia; exact W0 | rewrite IW by lia; exact W1 | rewrite IW by lia; exact W2|].
  assert (TT : forall x, rgs m2 RSP < x <= sp1 -> x mod 8 = 0 -> mem m (cont_stack cc + 8 * (8 + (x - rgs m2 RSP) / 8)) = mem m2 x).
  { intros x X X8. rewrite IW by lia. rewrite WT by lia. f_equal. lia. }
  exists fuel, m'. split; [exact EY|]. split.
  { split; [rewrite P, TT, M by lia; f_equal; lia|]. split; [exact A|]. split; [lia|]. split; [rewrite BP, TT by lia; exact MB|]. split.
    - intros q Qq. cbn in Qq. destruct Qq as [<-|[<-|[<-|[<-|[<-|[]]]]]]; [rewrite Y4|rewrite Y5|rewrite Y6|rewrite Y7|rewrite Y8]; rewrite IW by lia; assumption.
    - intros x X X8. rewrite YM. destruct (Z.eqb_spec x (cont_stack cc + 24)); [unfold cont_stack in *; lia|].
      replace ((rgs m2 RSP <? x) && (x <=? sp1) && (x mod 8 =? 0)) with true by lia. rewrite TT by lia. apply M. lia. }
  split.
  - intros j J. rewrite YM. destruct (Z.eqb_spec (cont_stack cc + 8 * j) (cont_stack cc + 24)) as [Q3|Q3].
    + replace j with 3 by lia. symmetry. exact W3.
    + replace ((rgs m2 RSP <? cont_stack cc + 8 * j) && (cont_stack cc + 8 * j <=? sp1) && ((cont_stack cc + 8 * j) mod 8 =? 0)) with false by (unfold cont_stack; lia).
      apply IW, J.
  - intros x X N. rewrite YM. destruct (Z.eqb_spec x (cont_stack cc + 24)); [contradiction|].
    replace ((rgs m2 RSP <? x) && (x <=? sp1) && (x mod 8 =? 0)) with false by lia. reflexivity.
Qed.
Lemma later_intact m3 m : callcc_body sp1 cc r [] m2 = Ok m3 -> later m3 m -> intact cc L m3 m.
Proof.
  intros E Lt. induction Lt as [|m m' _ IH I|m r0 r1 r2 fuel m' _ IH ND Y].
  - intros j J. reflexivity.
  - intros j J. rewrite I by exact J. apply IH, J.
  - destruct (yield_again m3 m E IH r0 r1 r2 ND) as (g & m'' & Y' & _ & I & _). pose proof (yield_det _ _ _ _ _ _ _ _ Y Y') as Q. injection Q as ->. exact I.
Qed.
(** Whenever the program yields to the continuation, after any number of earlier yields and
    whatever registers the compiler chose, the call of [here] returns again: at the same
    place, with the same value, registers and stack; and nothing else changes. *)
Theorem C65_yield_returns_from_here_again m3 m r0 r1 r2 : callcc_body sp1 cc r [] m2 = Ok m3 -> later m3 m ->
  NoDup [r0; r1; r2; RAX; RBX; RSP; RBP] ->
  exists fuel m', yield fuel sp1 cc r0 r1 r2 m = Ok (Some m') /\ returned m0 m' cc sp1 /\ later m3 m' /\
    (forall x, (x < rgs m2 RSP + 8 \/ sp1 < x \/ x mod 8 <> 0) -> x <> cont_stack cc + 24 -> mem m' x = mem m x).
Proof.
  intros E Lt ND. destruct (yield_again m3 m E (later_intact m3 m E Lt) r0 r1 r2 ND) as (fuel & m' & Y & R & I & M).
  exists fuel, m'. split; [exact Y|]. split; [exact R|]. split; [eapply later_yield; eauto|exact M].
Qed.
(** on another machine stack it returns nil and changes nothing *)
Theorem C65_other_stack_is_refused m3 m r0 r1 r2 fuel other : callcc_body sp1 cc r [] m2 = Ok m3 -> later m3 m ->
  other <> sp1 -> yield fuel other cc r0 r1 r2 m = Ok None.
Proof.
  intros E Lt N. pose proof (later_intact m3 m E Lt) as I. destruct here_ok as (m3' & E' & _ & _ & W). rewrite E in E'. injection E' as <-. cbv zeta in W.
  pose proof FR as [(O1 & O2 & O3 & O4) (A1 & A2 & A3 & A4) (C1 & C2) D].
  assert (LL : 8 * L = sp1 - rgs m2 RSP /\ 1 <= L) by (unfold L, words; lia).
  unfold yield. rewrite !load_ok by (unfold cont_stack; lia). cbn [bind]. pose proof (I 0 ltac:(lia)) as I0. rewrite Z.mul_0_r, Z.add_0_r in I0.
  rewrite I0. destruct W as (W0 & _). rewrite Z.mul_0_r, Z.add_0_r in W0. rewrite W0. destruct (Z.eqb_spec other sp1); [contradiction|reflexivity].
Qed.
End Here.

(** A concrete call: the frame of potion_callcc at 7936, the stack base at 8192, the object at 65536 *)
Definition ex_m0 : mach := mkM (fun q => match q with RSP => 7944 | RBP => 8000 | RBX => 11 | R12 => 12 | _ => 1 end)
  (fun x => if x =? 7944 then 4242 else x) false 99.
Definition ex_m2 : mach := match exec 5 (prologue 64) 0 ex_m0 with Ok m => m | _ => ex_m0 end.
Example C65_example : called ex_m0 ex_m2 64 /\ frame_ok 8192 (rgs ex_m2 RSP) (rgs ex_m2 RBP) 65536 /\
  exists m3 m', callcc_body 8192 65536 RDX [] ex_m2 = Ok m3 /\
    yield 300 8192 65536 RDI RSI R12 (mkM (fun _ => 77) (fun x => if 65536 <=? x then mem m3 x else 55) false 5) = Ok (Some m') /\
    rip m' = 4242 /\ rgs m' R12 = 12 /\ mem m' 8000 = 8000 /\ mem m' 16 = 55.
Proof.
  split; [|split].
  - constructor; [cbn; lia|]. exists ex_m2. split; [reflexivity|]. split; [reflexivity|]. split; [reflexivity|]. split; reflexivity.
  - constructor; vm_compute; intuition congruence.
  - do 2 eexists. split; [vm_compute; reflexivity|]. split; [vm_compute; reflexivity|]. vm_compute. auto.
Qed.

(** The registers that are saved are those of potion_callcc itself, not its caller's: if the
    compiled function keeps something in rbx (and restores rbx from its frame when it
    returns), the caller finds that in rbx when it is resumed. *)
Theorem C65_registers_of_here_itself_are_saved_refuted :
  exists m0 m2 sp1 cc m3 m', (* rbx is saved at -8(%rbp) by the prologue, and holds 777 in the body *)
    mem m2 (rgs m2 RBP - 8) = rgs m0 RBX /\ rgs m2 RBX = 777 /\ frame_ok sp1 (rgs m2 RSP) (rgs m2 RBP) cc /\
    callcc_body sp1 cc RDX [(RBX, -8)] m2 = Ok m3 /\ rgs m3 RBX = rgs m0 RBX /\
    yield 300 sp1 cc RDI RSI RCX m3 = Ok (Some m') /\ rip m' = rip m3 /\ rgs m' RBX = 777 /\ rgs m' RBX <> rgs m0 RBX.
Proof.
  exists ex_m0, (setr (mkM (rgs ex_m2) (fun x => if x =? 7928 then 11 else mem ex_m2 x) false 0) RBX 777), 8192, 65536.
  do 2 eexists. split; [vm_compute; reflexivity|]. split; [vm_compute; reflexivity|].
  split; [constructor; vm_compute; intuition congruence|]. split; [vm_compute; reflexivity|]. split; [vm_compute; reflexivity|]. split; [vm_compute; reflexivity|].
  vm_compute. intuition congruence.
Qed.
