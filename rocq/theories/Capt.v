(** The variables the compiler captures are the ones of the specification. *)
From Verif Require Import Base Arr GArr WordModel NumModel AsmModel CompileModel SrcSpec CompileProofs CompileEq CompileExt CodeGen GenLem.
From Coq Require Import ZifyBool.
Ltac Zify.zify_post_hook ::= Z.div_mod_to_equations.

Section Mono.
Context (chr0 : Z -> Z).
Local Notation upper := (isupper chr0).
Ltac wfinv := repeat match goal with
  | H : guard _ _ = Some _ |- _ => apply guard_Some in H; destruct H as [? H]
  | H : obind _ _ = Some _ |- _ => apply obind_Some in H; destruct H as (? & ? & H)
  | H : Some _ = Some _ |- _ => injection H as H
  | H : _ && _ = true |- _ => apply andb_prop in H; destruct H
  | H : negb _ = true |- _ => apply negb_true_iff in H
  end.
Ltac wfc := try match goal with H : wf _ _ _ _ (EFun _ _ _) = _ |- _ => rewrite wf_fun in H end; cbn [wf wf_all wf_items wf_clauses] in *; wfinv.

(** what an expression adds to the variables: assigned names that no enclosing
    function owns *)
Definition mono enc (L L' S : list Z) : Prop :=
  (forall x, memb x L' = memb x L || memb x S) /\ (forall x, memb x L' = true -> memb x L = true \/ owned enc x = false).
Lemma mono_refl enc L : mono enc L L [].
Proof. split; [intros; cbn; rewrite orb_false_r; reflexivity|auto]. Qed.
Lemma mono_trans enc L L1 L2 S1 S2 : mono enc L L1 S1 -> mono enc L1 L2 S2 -> mono enc L L2 (S1 ++ S2).
Proof.
  intros (A & B) (C & D). split.
  - intros x. rewrite C, A, memb_app. rewrite orb_assoc. reflexivity.
  - intros x K. apply D in K. destruct K as [K|K]; [apply B; exact K|auto].
Qed.
Lemma mono_set enc L L2 S x : memb x L || negb (owned enc x) = true -> mono enc (add x L) L2 S -> mono enc L L2 (x :: S).
Proof.
  intros G (C & D). split.
  - intros y. rewrite C, memb_add. change (memb y (x :: S)) with ((y =? x) || memb y S). destruct (y =? x), (memb y L), (memb y S); reflexivity.
  - intros y K. apply D in K. destruct K as [K|K]; [|auto]. rewrite memb_add in K. destruct (y =? x) eqn:Q; [|left; rewrite orb_false_r in K || idtac; destruct (memb y L); [reflexivity|discriminate K]].
    apply Z.eqb_eq in Q. subst y. destruct (memb x L); [auto|]. right. destruct (owned enc x); [discriminate G|reflexivity].
Qed.
Lemma wf_mono :
  (forall e enc lp L L', wf upper enc lp L e = Some L' -> mono enc L L' (sets e))
  /\ (forall es, (forall enc lp L L', wf_all upper enc lp L es = Some L' -> mono enc L L' (sets_all es))
       /\ (forall enc lp L L', wf_items upper enc lp L es = Some L' -> mono enc L L' (sets_all es))
       /\ True)
  /\ (forall k enc lp L L', wf_clauses upper enc lp L k = Some L' -> mono enc L L' (sets_clauses k)).
Proof.
  apply exp_ind3; intros; repeat match goal with IH : _ /\ _ |- _ => destruct IH end;
    try (match goal with |- _ /\ _ => split; [|split; [|exact Logic.I]] end; intros); wfc; cbn [sets sets_all sets_clauses]; subst;
    try apply mono_refl; eauto 8 using mono_trans, mono_set.
Qed.

(** the variables so far are those assigned so far *)
Definition adds (l S : list Z) : list Z := fold_left (fun l x => add x l) S l.
Lemma adds_app l S1 S2 : adds l (S1 ++ S2) = adds (adds l S1) S2. Proof. apply fold_left_app. Qed.
Lemma wf_vars :
  (forall e enc lp L L', wf upper enc lp L e = Some L' -> L' = adds L (sets e))
  /\ (forall es, (forall enc lp L L', wf_all upper enc lp L es = Some L' -> L' = adds L (sets_all es))
       /\ (forall enc lp L L', wf_items upper enc lp L es = Some L' -> L' = adds L (sets_all es))
       /\ True)
  /\ (forall k enc lp L L', wf_clauses upper enc lp L k = Some L' -> L' = adds L (sets_clauses k)).
Proof.
  apply exp_ind3; intros; repeat match goal with IH : _ /\ _ |- _ => destruct IH end;
    try (match goal with |- _ /\ _ => split; [|split; [|exact Logic.I]] end; intros); wfe; wfinv; cbn [sets sets_all sets_clauses]; rewrite ?adds_app; subst;
    try reflexivity; repeat match goal with IH : context [wf _ _ _ _ ?e], H : wf _ _ _ _ ?e = Some _ |- _ => apply IH in H; subst
     | IH : context [wf_all _ _ _ _ ?e], H : wf_all _ _ _ _ ?e = Some _ |- _ => apply IH in H; subst
     | IH : context [wf_items _ _ _ _ ?e], H : wf_items _ _ _ _ ?e = Some _ |- _ => apply IH in H; subst
     | IH : context [wf_clauses _ _ _ _ ?e], H : wf_clauses _ _ _ _ ?e = Some _ |- _ => apply IH in H; subst end; reflexivity.
Qed.

(** ** the pushes of one compilation step on the enclosing functions *)
Definition push1 (ups : list pb) (x : Z) : list pb :=
  match find_owner ups x with Some k => push_first k x ups | None => ups end.
Definition pushes (p : list Z) (ups : list pb) : list pb := fold_left push1 p ups.
Lemma pushes_app p q ups : pushes (p ++ q) ups = pushes q (pushes p ups).
Proof. apply fold_left_app. Qed.
Lemma push1_locals ups x : map b_locals (push1 ups x) = map b_locals ups.
Proof. unfold push1. destruct (find_owner ups x); [apply push_first_locals|reflexivity]. Qed.
Lemma pushes_locals p : forall ups, map b_locals (pushes p ups) = map b_locals ups.
Proof. induction p as [|x p IH]; intros ups; cbn; [reflexivity|]. rewrite IH. apply push1_locals. Qed.
Lemma push1_cons f ups x : owned (map b_locals (f :: ups)) x = true ->
  push1 (f :: ups) x = if memb x (b_locals f) then f :: ups else push_upval x f :: push1 ups x.
Proof.
  intros O. unfold push1. cbn [find_owner]. rewrite vfind_memb. destruct (vfind (b_locals f) x) eqn:V; [reflexivity|].
  cbn in O. change (existsb (Z.eqb x) (b_locals f)) with (memb x (b_locals f)) in O. rewrite vfind_memb, V in O. cbn [orb] in O.
  change (existsb (memb x) (map b_locals ups)) with (owned (map b_locals ups) x) in O.
  rewrite find_owner_owned in O. destruct (find_owner ups x); [reflexivity|discriminate].
Qed.
Lemma pushes_cons L : forall p f ups, b_locals f = L -> (forall x, memb x p = true -> owned (map b_locals (f :: ups)) x = true) ->
  let q := filter (fun x => negb (memb x L)) p in
  exists f', pushes p (f :: ups) = f' :: pushes q ups /\ b_locals f' = L /\ b_upvals f' = b_upvals f ++ q.
Proof.
  induction p as [|x p IH]; intros f ups EL O q.
  - exists f. split; [reflexivity|]. split; [exact EL|]. cbn. rewrite app_nil_r. reflexivity.
  - assert (Ox : owned (map b_locals (f :: ups)) x = true) by (apply O; cbn; rewrite Z.eqb_refl; reflexivity).
    change (pushes (x :: p) (f :: ups)) with (pushes p (push1 (f :: ups) x)). rewrite push1_cons by exact Ox. unfold q. cbn [filter]. rewrite EL.
    destruct (memb x L) eqn:M; cbn [negb].
    + apply IH; [exact EL|]. intros y Y. apply O. cbn. change (existsb (Z.eqb y) p) with (memb y p). rewrite Y. apply orb_true_r.
    + destruct (IH (push_upval x f) (push1 ups x)) as (f' & E1 & E2 & E3); [exact EL| |].
      * intros y Y. cbn [map]. rewrite push1_locals. apply O. cbn. change (existsb (Z.eqb y) p) with (memb y p). rewrite Y. apply orb_true_r.
      * exists f'. split; [exact E1|]. split; [exact E2|]. rewrite E3. cbn [push_upval set_upvals b_upvals]. rewrite <- app_assoc. reflexivity.
Qed.

Notation skl := (list Z * list Z * list pb)%type.
Definition grow (f : list Z -> list Z) (k k' : skl) : Prop :=
  exists p, snd (fst k') = snd (fst k) ++ p /\ f (snd (fst k)) = snd (fst k) ++ p /\ snd k' = pushes p (snd k).
Lemma grow_refl (k k' : skl) : snd (fst k') = snd (fst k) -> snd k' = snd k -> grow (fun U => U) k k'.
Proof. intros A B. exists []. rewrite app_nil_r. auto. Qed.
Lemma grow_trans f g k k1 k2 : grow f k k1 -> grow g k1 k2 -> grow (fun U => g (f U)) k k2.
Proof.
  intros (p & A & B & C) (q & A1 & B1 & C1). exists (p ++ q). rewrite B, <- A, A1, B1, C1, C, A, pushes_app, <- app_assoc. auto.
Qed.
Lemma grow_useup enc L x c : sc enc L c -> memb x L = false -> owned enc x = true -> grow (add x) (skel c) (skel (useup x c)).
Proof.
  intros S0 M O. destruct S0 as (A & B & C & D). cbn [skel fst snd] in A, B, C. subst L. unfold useup, PN_UPVAL. rewrite (memb_false _ _ M).
  unfold grow, add. rewrite vfind_memb. cbn [skel fst snd]. destruct (vfind (b_upvals (c_f c)) x) eqn:V.
  - exists []. rewrite app_nil_r. auto.
  - exists [x]. cbn [pushes fold_left]. unfold push1. rewrite <- B, find_owner_owned in O. destruct (find_owner (c_up c) x) eqn:F; cbn [fst]; [auto|discriminate O].
Qed.
Lemma grow_eq f k k' k1 : k1 = k -> grow f k k' -> grow f k1 k'. Proof. intros ->. auto. Qed.

(** [V]: the variables of the function, seen from where its variables so far are [L] *)
Definition vok enc (L V : list Z) : Prop :=
  (forall x, memb x L = true -> memb x V = true) /\ (forall x, memb x V = true -> memb x L = true \/ owned enc x = false).
Lemma vok_mono enc L L' S V : mono enc L L' S -> vok enc L' V -> vok enc L V.
Proof.
  intros (A & B) (C & D). split.
  - intros x K. apply C. rewrite A, K. reflexivity.
  - intros x K. apply D in K. destruct K as [K|K]; [|auto]. apply B. exact K.
Qed.
Definition cap_e (e : exp) : Prop := forall enc lp L L' V r c, wf upper enc lp L e = Some L' -> sc enc L c -> vok enc L' V ->
  grow (fun U => caps V U e) (skel c) (skel (cexp e r c)).
Definition cap_s (es : exps) : Prop := forall enc lp L L' V r c, wf_all upper enc lp L es = Some L' -> sc enc L c -> vok enc L' V ->
  grow (fun U => caps_all V U es) (skel c) (skel (cexps es r c)).
Definition cap_i (es : exps) : Prop := forall enc lp L L' V r c, wf_items upper enc lp L es = Some L' -> sc enc L c -> vok enc L' V ->
  grow (fun U => caps_all V U es) (skel c) (skel (citems es r c)).
Definition cap_a (es : exps) : Prop := forall enc lp L L' V r c, wf_items upper enc lp L es = Some L' -> sc enc L c -> vok enc L' V ->
  grow (fun U => caps_all V U es) (skel c) (skel (cargs es r c)).
Definition cap_k (k : clauses) : Prop := forall enc lp L L' V r c, wf_clauses upper enc lp L k = Some L' -> sc enc L c -> vok enc L' V ->
  grow (fun U => caps_clauses V U k) (skel c) (skel (cclauses k r c)).
Ltac vk := first [eassumption | match goal with
  | W : wf _ _ _ ?L ?e = Some ?L' |- vok _ ?L ?V => eapply vok_mono; [eapply (proj1 wf_mono); exact W|vk]
  | W : wf_all _ _ _ ?L ?e = Some ?L' |- vok _ ?L ?V => eapply vok_mono; [eapply (proj1 (proj1 (proj2 wf_mono) e)); exact W|vk]
  | W : wf_items _ _ _ ?L ?e = Some ?L' |- vok _ ?L ?V => eapply vok_mono; [eapply (proj1 (proj2 (proj1 (proj2 wf_mono) e))); exact W|vk]
  | W : wf_clauses _ _ _ ?L ?e = Some ?L' |- vok _ ?L ?V => eapply vok_mono; [eapply (proj2 (proj2 wf_mono)); exact W|vk] end].
Ltac sct := lazymatch goal with
  | |- sc _ _ (PN_REG _ _) => eapply sc_eq; [apply skel_reg|]; sct
  | |- sc _ _ (asm2 _ _ _ _) => eapply sc_eq; [apply skel_asm2|]; sct
  | |- sc _ _ (asm1 _ _ _) => eapply sc_eq; [apply skel_asm1|]; sct
  | |- sc _ _ (put_path _ _) => eapply sc_eq; [apply skel_path|]; sct
  | |- sc _ _ (patch_b _ _ _) => eapply sc_eq; [apply skel_patch_b|]; sct
  | |- sc _ _ (set_loop _ _) => eapply sc_eq; [apply skel_loop|]; sct
  | |- sc _ _ (load_value _ _ _) => eapply sc_eq; [apply skel_load|]; sct
  | |- sc _ _ (loadname _ _ _) => eapply sc_eq; [apply skel_loadname|]; sct
  | |- sc _ _ (endloop _ _ _ _ _) => eapply sc_eq; [apply skel_endloop|]; sct
  | |- sc _ _ (decl _ _) => eapply decl_sc; [sct|assumption]
  | |- sc _ _ (useup _ _) => eapply useup_sc; [sct|assumption|assumption]
  | |- sc _ _ (cexp ?e _ _) => eapply (proj1 (cexp_sc chr0)); [eassumption|sct]
  | |- sc _ _ (cexps ?e _ _) => eapply (proj1 (proj1 (proj2 (cexp_sc chr0)) e)); [eassumption|sct]
  | |- sc _ _ (citems ?e _ _) => eapply (proj1 (proj2 (proj1 (proj2 (cexp_sc chr0)) e))); [eassumption|sct]
  | |- sc _ _ (cargs ?e _ _) => eapply (proj2 (proj2 (proj1 (proj2 (cexp_sc chr0)) e))); [eassumption|sct]
  | |- sc _ _ (cclauses ?e _ _) => eapply (proj2 (proj2 (cexp_sc chr0))); [eassumption|sct]
  | |- sc _ _ ?c => first [eassumption | match goal with K : skel c = skel ?b |- _ => eapply sc_eq; [exact K|]; sct end]
  end.
Lemma grow_same k k' : k' = k -> grow (fun U => U) k k'.
Proof. intros ->. apply grow_refl; reflexivity. Qed.
Ltac pv := repeat match goal with |- context [put_value ?n ?c] =>
  let H := fresh "PV" in pose proof (skel_value n c) as H; destruct (put_value n c) as [? ?]; cbn [fst] in H end.
Ltac sk := autorewrite with skel; repeat (match goal with H : skel ?c = _ |- context [skel ?c] => rewrite H end; autorewrite with skel).
Ltac grt := sk; lazymatch goal with
  | |- grow (fun U => caps ?V (@?f U) ?e) _ (skel (cexp ?e ?r ?c)) => apply (grow_trans f (fun U => caps V U e) _ (skel c));
      [grt|match goal with IH : cap_e e |- _ => eapply (IH _ _ _ _ V r c); [eassumption|sct|vk] end]
  | |- grow (fun U => caps_all ?V (@?f U) ?e) _ (skel (cexps ?e ?r ?c)) => apply (grow_trans f (fun U => caps_all V U e) _ (skel c));
      [grt|match goal with IH : cap_s e |- _ => eapply (IH _ _ _ _ V r c); [eassumption|sct|vk] end]
  | |- grow (fun U => caps_all ?V (@?f U) ?e) _ (skel (citems ?e ?r ?c)) => apply (grow_trans f (fun U => caps_all V U e) _ (skel c));
      [grt|match goal with IH : cap_i e |- _ => eapply (IH _ _ _ _ V r c); [eassumption|sct|vk] end]
  | |- grow (fun U => caps_all ?V (@?f U) ?e) _ (skel (cargs ?e ?r ?c)) => apply (grow_trans f (fun U => caps_all V U e) _ (skel c));
      [grt|match goal with IH : cap_a e |- _ => eapply (IH _ _ _ _ V r c); [eassumption|sct|vk] end]
  | |- grow (fun U => caps_clauses ?V (@?f U) ?e) _ (skel (cclauses ?e ?r ?c)) => apply (grow_trans f (fun U => caps_clauses V U e) _ (skel c));
      [grt|match goal with IH : cap_k e |- _ => eapply (IH _ _ _ _ V r c); [eassumption|sct|vk] end]
  | |- grow (fun U => add ?x U) _ (skel (useup ?x ?c)) => apply (grow_trans (fun U => U) (add x) _ (skel c));
      [grt|eapply grow_useup; [sct|assumption|assumption]]
  | |- grow (fun U => U) _ (skel (decl ?x ?c)) => rewrite decl_skel; apply (grow_trans (fun U => U) (fun U => U) _ (skel c)); [grt|apply grow_refl; reflexivity]
  | |- grow (fun U => U) _ _ => apply grow_same; reflexivity
  end.
Lemma sc_fun enc L r ps c : sc enc L c ->
  sc (L :: enc) ps (PN_REG 0 (mkC (pb0 ps ps) (c_f (PN_REG r c) :: c_up (PN_REG r c)) (c_tbl (PN_REG r c)) None)).
Proof.
  intros S1. destruct S1 as (A & B & C & D). cbn [skel fst snd] in A, B, C, D.
  pose proof (f_equal (fun k => fst (fst k)) (skel_reg r c) : b_locals (c_f (PN_REG r c)) = b_locals (c_f c)) as K1.
  pose proof (f_equal (fun k => snd (fst k)) (skel_reg r c) : b_upvals (c_f (PN_REG r c)) = b_upvals (c_f c)) as K2.
  assert (K3 : c_up (PN_REG r c) = c_up c) by reflexivity.
  unfold sc. rewrite skel_reg. (split; [|split; [|split]]); cbn [skel c_f c_up pb0 fst snd b_locals b_upvals map chain_ok].
  + reflexivity.
  + rewrite K3. congruence.
  + intros y Y. discriminate.
  + rewrite K1, K2, K3. split; [|exact D]. rewrite A, B. exact C.
Qed.
Lemma cexp_caps : (forall e, cap_e e) /\ (forall es, cap_s es /\ cap_i es /\ cap_a es) /\ (forall k, cap_k k).
Proof.
  apply exp_ind3; repeat match goal with |- forall _, _ => intro end; repeat match goal with IH : _ /\ _ |- _ => destruct IH end;
    try (match goal with |- _ /\ _ => split; [|split] end); intros enc lp L L' VV r0 c0 WF SC0 VK; wfe;
    cbn [cexp cexps citems cargs cclauses caps caps_all caps_clauses]; cbv zeta; pv; subst.
  all: try (grt; fail).
  - destruct post; grt.
  - destruct up, k; wfinv; cbv zeta; pv; grt.
  - match goal with IH : cap_s b |- _ => rename IH into IB end. match goal with W : wf_all _ _ _ _ b = Some _ |- _ => rename W into WB end.
    pose proof (sc_fun enc L' r0 ps c0 SC0) as S0. set (C0 := PN_REG 0 _) in *.
    pose proof (proj1 (proj1 (proj2 (cexp_sc chr0)) b) _ _ _ _ 0 _ WB S0) as S1.
    pose proof (proj1 (proj1 (proj2 wf_mono) b) _ _ _ _ WB) as MO.
    destruct (IB _ _ _ _ (ps ++ sets_all b) 0 C0 WB S0) as (p & P1 & P2 & P3).
    { split; intros y K; [rewrite memb_app, <- (proj1 MO); exact K|left; rewrite memb_app, <- (proj1 MO) in K; exact K]. }
    assert (E0 : snd (fst (skel C0)) = []) by (unfold C0; rewrite skel_reg; reflexivity).
    assert (E1 : snd (skel C0) = c_f (PN_REG r0 c0) :: c_up c0) by (unfold C0; rewrite skel_reg; reflexivity).
    rewrite E0 in P1, P2. rewrite E1 in P3. cbn [app] in P1, P2. set (C1 := cexps b 0 C0) in *. rewrite P2.
    destruct SC0 as (A1 & A2 & A3 & A4).
    pose proof (f_equal (fun k => fst (fst k)) (skel_reg r0 c0) : b_locals (c_f (PN_REG r0 c0)) = b_locals (c_f c0)) as K1.
    pose proof (f_equal (fun k => snd (fst k)) (skel_reg r0 c0) : b_upvals (c_f (PN_REG r0 c0)) = b_upvals (c_f c0)) as K2.
    cbn [skel fst snd] in A1, A2.
    assert (OW : forall y, memb y p = true -> owned (L' :: enc) y = true).
    { intros y K. destruct S1 as (_ & _ & S2 & _). rewrite P1 in S2. apply S2, K. }
    destruct (pushes_cons L' p (c_f (PN_REG r0 c0)) (c_up c0)) as (f' & F1 & F2 & F3).
    { congruence. } { intros y K. cbn [map]. rewrite K1, A1, A2. apply OW, K. }
    assert (U1 : c_up C1 = f' :: pushes (filter (fun x0 => negb (memb x0 L')) p) (c_up c0)) by (rewrite <- F1; exact P3).
    erewrite skel_endfun by exact U1. exists (filter (fun x0 => negb (memb x0 L')) p). cbn [skel fst snd]. rewrite F3, K2. split; [reflexivity|]. split; [|reflexivity].
    f_equal. clear P1 P2 P3 F1 F2 F3 U1. induction p as [|y p IHp]; [reflexivity|]. cbn [filter]. rewrite IHp.
    + assert (memb y VV = memb y L') as ->; [|reflexivity]. specialize (OW y). cbn in OW. rewrite Z.eqb_refl in OW. specialize (OW eq_refl).
      change (memb y L' || owned enc y = true) in OW. destruct VK as (V1 & V2). specialize (V1 y). specialize (V2 y).
      destruct (memb y VV), (memb y L'); try reflexivity; [|discriminate V1; reflexivity]. destruct (V2 eq_refl) as [K|K]; [discriminate K|].
      rewrite K in OW. discriminate OW.
    + intros z K. apply OW. cbn. change (existsb (Z.eqb z) p) with (memb z p). rewrite K. apply orb_true_r.
Qed.
(** the upvalues of a compiled function *)
Lemma captured_eq enc L L' r ps b c : wf_all upper (L :: enc) false ps b = Some L' -> sc enc L c ->
  b_upvals (c_f (cexps b 0 (PN_REG 0 (mkC (pb0 ps ps) (c_f (PN_REG r c) :: c_up (PN_REG r c)) (c_tbl (PN_REG r c)) None)))) = captured ps b.
Proof.
  intros WB SC0. pose proof (sc_fun enc L r ps c SC0) as S0. set (C0 := PN_REG 0 _) in *.
  pose proof (proj1 (proj1 (proj2 wf_mono) b) _ _ _ _ WB) as MO.
  destruct (proj1 (proj1 (proj2 cexp_caps) b) _ _ _ _ (ps ++ sets_all b) 0 C0 WB S0) as (p & P1 & P2 & P3).
  { split; intros y K; [rewrite memb_app, <- (proj1 MO); exact K|left; rewrite memb_app, <- (proj1 MO) in K; exact K]. }
  assert (E0 : snd (fst (skel C0)) = []) by (unfold C0; rewrite skel_reg; reflexivity).
  rewrite E0 in P1, P2. unfold captured. rewrite P2. exact P1.
Qed.
End Mono.
