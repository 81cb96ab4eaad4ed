(** Properties C36 and C37: instance layout and fields, in every state reached
    by a history of class definitions, instance creations and stores. *)
From Coq Require Import ZifyBool.
From Verif Require Import Base Arr GArr WordModel WordProofs TupleModel TupleProofs KhashModel KhashProofs TableModel TableProofs.
From Verif Require Import ObjModel ObjSpec PropIvf ObjProofs PropObj PropObj2.
Ltac Zify.zify_post_hook ::= Z.div_mod_to_equations.

(** ** The specification of layouts *)
Definition names (o : option (list Z)) : list Z := match o with Some l => l | None => [] end.
Lemma merge_in own pl x : In x (names (merge_fields own pl)) <-> In x (names own) \/ In x (names pl).
Proof.
  unfold merge_fields. destruct pl as [p|]; [|split; [auto|intros [H|[]]; exact H]].
  change (names (Some (match own with Some o => o | None => [] end ++ filter (fun y => negb (memz y (match own with Some q => q | None => [] end))) p)))
    with (names own ++ filter (fun x => negb (memz x (names own))) p). change (names (Some p)) with p. rewrite in_app_iff, filter_In.
  destruct (memz x (names own)) eqn:M.
  - apply memz_In in M. cbn. tauto.
  - cbn. tauto.
Qed.
(** own fields keep their positions: the layout starts with them *)
Lemma merge_prefix own pl : exists r, names (merge_fields own pl) = names own ++ r.
Proof.
  unfold merge_fields. destruct pl as [p|]; [eexists; reflexivity|]. exists []. rewrite app_nil_r. reflexivity.
Qed.

(** every class has at least the fields of its parent *)
Definition inherits (S : sstate) : Prop := forall t c p cp x, sget S t = Some c -> sc_parent c = Some p -> sget S p = Some cp ->
  In x (names (sc_fields cp)) -> In x (names (sc_fields c)).

Section Obj.
Variable uniq : Z -> Z.
Variable junk : Z -> Z * Z.
Variable e : env.
Variable jit : bool.
Variable PN_lookup : Z.
Notation rep' := (rep uniq jit PN_lookup).
Notation reach' := (reach uniq junk e jit PN_lookup).

Lemma inherits_def S t k m : inherits S -> inherits (spec_def S t k m).
Proof.
  intros H t1 c1 p cp x E P Ep. unfold spec_def in *. rewrite sget_upd in E, Ep.
  destruct (sget S t1) as [c0|] eqn:E0; [|discriminate]. destruct (sget S p) as [cp0|] eqn:Ep0; [|discriminate].
  injection E as <-. injection Ep as <-. assert (P0 : sc_parent c0 = Some p) by (destruct (t1 =? t); exact P).
  pose proof (H t1 c0 p cp0 x E0 P0 Ep0) as X. destruct (t1 =? t), (p =? t); exact X.
Qed.
Lemma reach_inherits n w S : reach' n w S -> inherits S.
Proof.
  induction 1 as [w B|n w S p pa c cl self ivars own w' a RE IH L Hc Hp NL SELF VO DO HO HM EQ
    |n w S t c a key val w' m _ IH L Hc Ha NK VO EQ|n w S t c a w' o _ IH L Hc Ha N1 N2 EQ
    |n w S fuel o f v w' r _ IH L EQ|n w S o _ IH L NV NO OT]; try exact IH.
  - apply inherits_def. intros t c p cp x E P Ep. destruct (plain_class _ _ Ep) as (a & v & _ & _ & _ & _ & _ & _ & _ & _ & _ & _ & SF).
    rewrite SF. intros [].
  - destruct (reach_inv _ _ _ _ _ _ _ _ RE) as (R & _ & _). pose proof (rep_range _ _ _ _ _ _ R) as RG.
    intros t1 c1 p1 cp x E P Ep Hx. unfold sget, spec_class in E. cbn [s_classes cfind] in E. rewrite Hc in E.
    assert (OLD : forall t2 c2, t2 < s_next S -> sget (spec_class PN_TVTABLE S p own) t2 = Some c2 -> sget S t2 = Some c2).
    { intros t2 c2 L2. unfold sget, spec_class. cbn [s_classes cfind]. destruct (Z.eqb_spec (s_next S) t2); [lia|].
      destruct (Z.eqb_spec (s_next S + 1) t2); [lia|]. auto. }
    pose proof (RG p c Hc) as RGp. destruct (rep_look _ _ _ _ _ _ R) as (_ & _ & cv & Ev & _). pose proof (RG _ _ Ev) as RGv.
    destruct (s_next S =? t1); [|destruct (s_next S + 1 =? t1)].
    + injection E as <-. cbn [sc_parent sc_fields] in *. injection P as <-. apply OLD in Ep; [|lia]. apply merge_in. right. congruence.
    + injection E as <-. cbn [sc_parent sc_fields] in *. injection P as <-. apply OLD in Ep; [|lia].
      exfalso. assert (cp = cv) by congruence. subst cp.
      (* no class Mixin with fields *)
      assert (NF : names (sc_fields cv) = []).
      { clear - RE Ev. revert cv Ev. induction RE as [w B|n w S p pa c cl self ivars own w' a RE IH L Hc Hp NL SELF VO DO HO HM EQ
          |n w S t c a key val w' m _ IH L Hc Ha NK VO EQ|n w S t c a w' o _ IH L Hc Ha N1 N2 EQ
          |n w S fuel o f v w' r _ IH L EQ|n w S o _ IH L NV NO OT]; try exact IH; intros cv Ev.
        - unfold boot_spec, spec_def in Ev. rewrite sget_upd in Ev. destruct (sget boot_spec0 PN_TVTABLE) as [c0|] eqn:E0; [|discriminate].
          destruct (plain_class _ _ E0) as (a & v & _ & _ & _ & _ & _ & _ & _ & _ & _ & _ & SF). injection Ev as <-. cbn [sc_fields]. rewrite SF. reflexivity.
        - destruct (reach_inv _ _ _ _ _ _ _ _ RE) as (R & _ & _). destruct (rep_look _ _ _ _ _ _ R) as (_ & _ & c2 & E2 & _).
          pose proof (rep_range _ _ _ _ _ _ R _ _ E2) as RG. apply IH. unfold sget, spec_class in Ev. cbn [s_classes cfind] in Ev.
          destruct (Z.eqb_spec (s_next S) PN_TVTABLE); [lia|]. destruct (Z.eqb_spec (s_next S + 1) PN_TVTABLE); [lia|]. exact Ev.
        - unfold spec_def in Ev. rewrite sget_upd in Ev. destruct (sget S PN_TVTABLE) as [c0|] eqn:E0; [|discriminate].
          pose proof (IH c0 eq_refl) as X. destruct (PN_TVTABLE =? t); injection Ev as <-; exact X. }
      rewrite NF in Hx. destruct Hx.
    + assert (Ep' : sget S p1 = Some cp).
      { destruct (rep_parent0 _ _ _ _ _ _ R t1 c1 p1 E P) as (cq & Eq). pose proof (RG _ _ Eq). apply OLD; [lia|exact Ep]. }
      apply (IH t1 c1 p1 cp x E P Ep' Hx).
  - apply inherits_def, IH.
Qed.

(** ** C36: the layout of a class *)
(** In every reachable state the field list of every class has no duplicates,
    is what the class object holds, and the class object's field count is its
    length. *)
Theorem C36_layout_of_class n w S t c l : reach' n w S -> sget S t = Some c -> sc_fields c = Some l ->
  NoDup l /\ exists a v iv, PN_VTABLE w t = Ok a /\ hget w a = Some (OVt v) /\ v_ivars v = Some iv /\ contents iv = l /\ v_ivlen v = zlen l.
Proof.
  intros RE Hc Hl. destruct (reach_inv _ _ _ _ _ _ _ _ RE) as (R & _ & F). split; [apply (F t c l Hc Hl)|].
  destruct (rep_class _ _ _ _ _ _ R t c Hc) as (a & v & Ha & Hv & _ & _ & _ & _ & _ & _ & FR). unfold fields_rep in FR. rewrite Hl in FR.
  destruct (v_ivars v) as [iv|] eqn:EI; [|contradiction]. exists a, v, iv. intuition.
Qed.
(** A new class has exactly its own and its parent's fields, own fields first,
    each once; instances have one slot per field. *)
Theorem C36_new_class n w S p pa c cl ivars own w' a :
  reach' n w S -> n < limit -> sget S p = Some c -> PN_VTABLE w p = Ok pa -> p <> PN_TLOBBY ->
  value_ok w cl -> decl_ok ivars own -> (forall l, own = Some l -> NoDup l /\ zlen l < 2 ^ 25) ->
  (forall l, merge_fields own (sc_fields c) = Some l -> zlen l < 2 ^ 25) ->
  class_new uniq e jit w cl pa ivars = Ok (w', a) ->
  exists v l, hget w' a = Some (OVt v) /\ v_ivlen v = zlen l /\ NoDup l /\
    (forall x, In x l <-> In x (names own) \/ In x (names (sc_fields c))) /\ (exists r, l = names own ++ r) /\
    (own <> None \/ sc_fields c <> None -> exists iv, v_ivars v = Some iv /\ contents iv = l).
Proof.
  intros RE L Hc Ha NL VO DO HO HM EQ.
  assert (RE' : reach' (n + 1) w' (spec_class PN_TVTABLE S p own)) by (eapply reach_class; eauto).
  destruct (reach_inv _ _ _ _ _ _ _ _ RE) as (R & _ & F). destruct (reach_inv _ _ _ _ _ _ _ _ RE') as (R' & _ & F').
  destruct (class_new_ok uniq junk e jit PN_lookup n w S p pa c cl ivars own R L Hc Ha NL VO DO F) with (self := pa)
      as (w2 & a2 & E2 & _ & VA & _); [intros l El; apply (HO l El)|auto|].
  assert (w2 = w' /\ a2 = a) as [-> ->] by (split; congruence). clear E2.
  assert (SG : sget (spec_class PN_TVTABLE S p own) (s_next S) = Some (mkSC (Some p) (Some (s_next S + 1)) [] (merge_fields own (sc_fields c)))).
  { unfold sget, spec_class. cbn [s_classes cfind]. rewrite Z.eqb_refl. fold (sget S p). rewrite Hc. reflexivity. }
  destruct (rep_class _ _ _ _ _ _ R' _ _ SG) as (a3 & v & Ha3 & Hv & _ & _ & _ & _ & _ & _ & FR). assert (a3 = a) by congruence. subst a3.
  exists v, (names (merge_fields own (sc_fields c))). split; [exact Hv|]. cbn [sc_fields] in FR.
  split; [rewrite (fields_len uniq jit _ _ FR); destruct (merge_fields own (sc_fields c)); reflexivity|].
  split; [|split; [apply merge_in|split; [apply merge_prefix|]]].
  - destruct (merge_fields own (sc_fields c)) as [l|] eqn:EM; [|constructor]. apply (F' _ _ l SG). reflexivity.
  - intros NN. unfold fields_rep in FR. destruct (v_ivars v) as [iv|].
    + exists iv. split; [reflexivity|]. destruct (merge_fields own (sc_fields c)); [|contradiction]. apply FR.
    + exfalso. destruct (sc_fields c), own; cbn in FR; try contradiction. tauto.
Qed.
(** A class has the fields of all its ancestors. *)
Theorem C36_inherits n w S t c a ca x : reach' n w S -> ancestor S t a -> sget S t = Some c -> sget S a = Some ca ->
  In x (names (sc_fields ca)) -> In x (names (sc_fields c)).
Proof.
  intros RE AN. revert c ca. induction AN as [t c0 E|t c0 p a E P AN IH]; intros c ca Hc Ha Hx; [congruence|].
  destruct (reach_inv _ _ _ _ _ _ _ _ RE) as (R & _ & _). destruct (rep_parent0 _ _ _ _ _ _ R t c0 p E P) as (cp & Ep).
  assert (c = c0) by congruence. subst c. apply (reach_inherits n w S RE t c0 p cp x E P Ep). apply (IH cp ca Ep Ha Hx).
Qed.
End Obj.
(** Names declared twice are kept twice (the code does not check). *)
Theorem C36_duplicates_refuted : exists iv w w' a v, boot ex_uniq ex_junk 9 = Ok w /\ contents iv = [100; 100] /\
  class_new ex_uniq ex_env true w PN_NIL PN_NIL (Some iv) = Ok (w', a) /\ hget w' a = Some (OVt v) /\ v_ivlen v = 2 /\
  exists iv', v_ivars v = Some iv' /\ contents iv' = [100; 100].
Proof.
  exists (mkT 2 2 [100; 100]). destruct (boot ex_uniq ex_junk 9) as [w| |] eqn:B; [|vm_compute in B; discriminate|vm_compute in B; discriminate].
  exists w. vm_compute in B. injection B as <-.
  eexists _, _, _. split; [reflexivity|]. split; [reflexivity|]. split; [vm_compute; reflexivity|]. split; [vm_compute; reflexivity|].
  split; [reflexivity|]. eexists. split; reflexivity.
Qed.
