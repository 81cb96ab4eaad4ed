(** Properties C35 and C57: method dispatch and kinship, for every history of
    class definitions, method definitions, instance creations and field
    stores since start-up.  Specification: ObjSpec.v. *)
From Coq Require Import ZifyBool.
From Verif Require Import Base Arr GArr WordModel WordProofs TupleModel TupleProofs KhashModel KhashProofs TableModel TableProofs.
From Verif Require Import ObjModel ObjSpec PropIvf ObjProofs PropObj.
Ltac Zify.zify_post_hook ::= Z.div_mod_to_equations.

(** ** What "def" does to the nearest definition (about the specification) *)
Lemma nearest_def_other S tc k m t k' r : k' <> k -> nearest S t k' r -> nearest (spec_def S tc k m) t k' r.
Proof.
  intros N. induction 1 as [t k' c x E F|t k' c p r E F P _ IH|t k' c E F P].
  - eapply near_own; [unfold spec_def; rewrite sget_upd, E; reflexivity|]. destruct (t =? tc); [|exact F].
    cbn [sc_methods find_key fst snd]. destruct (Z.eqb_spec k k'); [congruence|]. rewrite find_drop_key.
    destruct (Z.eqb_spec k' k); [contradiction|exact F].
  - eapply near_up; [unfold spec_def; rewrite sget_upd, E; reflexivity| | |exact (IH N)].
    + destruct (t =? tc); [|exact F]. cbn [sc_methods find_key fst snd]. destruct (Z.eqb_spec k k'); [congruence|].
      rewrite find_drop_key. destruct (Z.eqb_spec k' k); [contradiction|exact F].
    + destruct (t =? tc); exact P.
  - eapply near_none; [unfold spec_def; rewrite sget_upd, E; reflexivity| |].
    + destruct (t =? tc); [|exact F]. cbn [sc_methods find_key fst snd]. destruct (Z.eqb_spec k k'); [congruence|].
      rewrite find_drop_key. destruct (Z.eqb_spec k' k); [contradiction|exact F].
    + destruct (t =? tc); exact P.
Qed.
Lemma nearest_def_sees S tc k m t : sees S k t tc -> nearest (spec_def S tc k m) t k (Some m).
Proof.
  induction 1 as [t c E|t c p a E F P _ IH].
  - eapply near_own; [unfold spec_def; rewrite sget_upd, E, Z.eqb_refl; reflexivity|].
    cbn [sc_methods find_key fst snd]. rewrite Z.eqb_refl. reflexivity.
  - destruct (Z.eq_dec t a) as [->|N].
    + eapply near_own; [unfold spec_def; rewrite sget_upd, E, Z.eqb_refl; reflexivity|].
      cbn [sc_methods find_key fst snd]. rewrite Z.eqb_refl. reflexivity.
    + eapply near_up; [unfold spec_def; rewrite sget_upd, E; reflexivity| | |exact IH];
        destruct (Z.eqb_spec t a); try contradiction; assumption.
Qed.
Lemma nearest_def_blind S tc k m t r : ~ sees S k t tc -> nearest S t k r -> nearest (spec_def S tc k m) t k r.
Proof.
  intros N NR. revert N. induction NR as [t k c x E F|t k c p r E F P _ IH|t k c E F P]; intros N.
  all: assert (NT : t <> tc) by (intros ->; apply N; eapply sees_self; exact E).
  all: assert (E' : sget (spec_def S tc k m) t = Some c)
      by (unfold spec_def; rewrite sget_upd, E; destruct (Z.eqb_spec t tc); [contradiction|reflexivity]).
  - eapply near_own; eassumption.
  - eapply near_up; try eassumption. apply IH. intros H. apply N. eapply sees_up; eassumption.
  - eapply near_none; eassumption.
Qed.

Lemma NoDup_app_intro {A} (a b : list A) : NoDup a -> NoDup b -> (forall x, In x a -> ~ In x b) -> NoDup (a ++ b).
Proof.
  induction 1 as [|x a NI ND IH]; intros B D; [exact B|]. cbn [app]. constructor.
  - rewrite in_app_iff. intros [H|H]; [contradiction|]. apply (D x); [left; reflexivity|exact H].
  - apply IH; [exact B|]. intros y Hy. apply D. right. exact Hy.
Qed.
Section Obj.
Variable uniq : Z -> Z.
Variable junk : Z -> Z * Z.
Variable e : env.
Variable jit : bool.
Variable PN_lookup : Z.

(** ** Histories.  [reach n w S]: after n operations since start-up the
    interpreter is in state [w] and the user's picture of it is [S]. *)
Inductive reach : Z -> world -> sstate -> Prop :=
(** start-up (core/internal.c potion_create) *)
| reach_boot w : boot uniq junk PN_lookup = Ok w -> reach 1 w (boot_spec PN_lookup)
(** a class below class p; own field names distinct.  The receiver may be the
    class p itself or, for Object, nil or the lobby *)
| reach_class n w S p pa c cl self ivars own w' a :
    reach n w S -> n < limit -> sget S p = Some c -> PN_VTABLE w p = Ok pa -> p <> PN_TLOBBY ->
    self = pa \/ (p = PN_TOBJECT /\ (self = PN_NIL \/ self = w_lobby w)) ->
    value_ok w cl -> decl_ok ivars own -> (forall l, own = Some l -> NoDup l /\ zlen l < 2 ^ 25) ->
    (forall l, merge_fields own (sc_fields c) = Some l -> zlen l < 2 ^ 25) ->
    class_new uniq e jit w cl self ivars = Ok (w', a) ->
    reach (n + 1) w' (spec_class PN_TVTABLE S p own)
(** a method definition *)
| reach_def n w S t c a key val w' m :
    reach n w S -> n < limit -> sget S t = Some c -> PN_VTABLE w t = Ok a -> key <> PN_lookup -> value_ok w val ->
    def_method uniq junk w a key val = Ok (w', Some m) ->
    reach (n + 1) w' (spec_def S t key m)
(** an instance of a class other than Mixin, Function and their prototypes *)
| reach_new n w S t c a w' o :
    reach n w S -> n < limit -> sget S t = Some c -> PN_VTABLE w t = Ok a ->
    t <> PN_TCLOSURE -> t <> PN_TPROTO ->
    object_new w a (fun _ => PN_NIL) = Ok (w', o) ->
    reach (n + 1) w' S
(** a field store *)
| reach_set n w S fuel o f v w' r :
    reach n w S -> n < limit -> obj_set uniq fuel w o f v = Ok (w', r) -> reach (n + 1) w' S
(** any other object comes into being: a string, tuple, function, ... *)
| reach_other n w S o :
    reach n w S -> n < limit -> (forall v, o <> OVt v) -> (forall t f, o <> OObj t f) ->
    (forall t, o = OOther t -> t <> PN_TVTABLE /\ t <> PN_TCLOSURE /\ t <> PN_TPROTO) ->
    reach (n + 1) (fst (alloc w o)) S.

Definition fields_ok (S : sstate) : Prop := forall t c l, sget S t = Some c -> sc_fields c = Some l -> NoDup l /\ zlen l < 2 ^ 25.
Lemma fields_boot : fields_ok (boot_spec PN_lookup).
Proof.
  intros t c l E F. unfold boot_spec, spec_def in E. rewrite sget_upd in E.
  destruct (sget boot_spec0 t) as [c0|] eqn:E0; [|discriminate]. destruct (plain_class _ _ E0) as (a & v & _ & _ & _ & _ & _ & _ & _ & _ & _ & _ & SF).
  injection E as <-. destruct (t =? PN_TVTABLE); cbn [sc_fields] in F; congruence.
Qed.
Lemma fields_def S t k m : fields_ok S -> fields_ok (spec_def S t k m).
Proof.
  intros H t1 c1 l E F. unfold spec_def in E. rewrite sget_upd in E. destruct (sget S t1) as [c0|] eqn:E0; [|discriminate].
  apply (H t1 c0 l E0). injection E as <-. destruct (t1 =? t); exact F.
Qed.
Lemma merge_nodup own pl l : merge_fields own pl = Some l -> (forall o, own = Some o -> NoDup o) -> (forall o, pl = Some o -> NoDup o) -> NoDup l.
Proof.
  unfold merge_fields. destruct pl as [p|]; [|intros -> A _; apply A; reflexivity].
  intros X A B. injection X as <-. specialize (B p eq_refl).
  assert (AO : NoDup match own with Some o => o | None => [] end) by (destruct own; [apply A; reflexivity|constructor]).
  set (o := match own with Some o => o | None => [] end) in *. clearbody o.
  apply NoDup_app_intro; [exact AO|apply NoDup_filter, B|].
  intros x Hx Hy. apply filter_In in Hy. destruct Hy as [_ Hy]. apply memz_In in Hx. rewrite Hx in Hy. discriminate.
Qed.

Lemma fields_class S p own c : fields_ok S -> sget S p = Some c ->
  (forall l, own = Some l -> NoDup l /\ zlen l < 2 ^ 25) -> (forall l, merge_fields own (sc_fields c) = Some l -> zlen l < 2 ^ 25) ->
  fields_ok (spec_class PN_TVTABLE S p own).
Proof.
  intros FO Hc HO HM t1 c1 l E F. unfold sget, spec_class in E. cbn [s_classes cfind] in E. rewrite Hc in E.
  destruct (s_next S =? t1).
  - injection E as <-. cbn [sc_fields] in F. split; [|apply HM, F].
    apply (merge_nodup _ _ _ F); [intros o Eo; apply (HO o Eo)|intros o Eo; apply (FO p c o Hc Eo)].
  - destruct (s_next S + 1 =? t1); [injection E as <-; discriminate|]. apply (FO t1 c1 l E F).
Qed.
Notation rep' := (rep uniq jit PN_lookup).
Lemma rep_idle n w S : rep' n w S -> n < limit -> rep' (n + 1) w S.
Proof.
  intros R L. apply (rep_same uniq junk jit PN_lookup n w); auto.
  - lia.
  - intros x o H _. exists o. split; [exact H|apply kept_refl].
  - intros x ty f H. left. exists f. auto.
Qed.
Lemma obj_set_rep n w S fuel o f v w' r : rep' n w S -> n < limit -> obj_set uniq fuel w o f v = Ok (w', r) -> rep' (n + 1) w' S.
Proof.
  intros R L H. unfold obj_set in H. destruct (find_ivar uniq fuel w o f) as [i| |]; try discriminate. cbn [bind] in H.
  destruct (i >=? 0); [|injection H as <- _; apply rep_idle; assumption].
  destruct (hget w o) as [[| | |t fs|]|] eqn:HG; try discriminate.
  destruct (wr fs i v) as [fs'| |] eqn:EW; try discriminate. cbn [bind] in H. injection H as <- _.
  assert (ZL : zlen fs' = zlen fs).
  { unfold wr in EW. destruct (inb fs i) eqn:IB; [|discriminate]. injection EW as <-. apply zlen_upd. apply inb_true, IB. }
  apply (rep_same uniq junk jit PN_lookup n w); auto.
  - apply hset_vts.
  - apply hset_lobby.
  - rewrite (hset_len _ _ _ _ HG). lia.
  - intros x ob Hx NO. assert (x <> o) by (intros ->; rewrite HG in Hx; injection Hx as <-; apply (NO t fs); reflexivity).
    rewrite (hget_hset_other _ _ _ _ _ HG) by congruence. exists ob. split; [exact Hx|apply kept_refl].
  - intros x ty f0 Hx. left. destruct (Z.eq_dec x o) as [->|N].
    + rewrite (hget_hset_same _ _ _ _ HG) in Hx. injection Hx as <- <-. exists fs. auto.
    + rewrite (hget_hset_other _ _ _ _ _ HG) in Hx by congruence. exists f0. auto.
Qed.
Lemma zlen_map_seq (fj : nat -> Z) k : 0 <= k -> zlen (map fj (seq 0 (Z.to_nat k))) = k.
Proof. intros H. unfold zlen. rewrite map_length, seq_length. lia. Qed.
Lemma fields_len v fs : fields_rep uniq jit v fs -> v_ivlen v = match fs with Some l => zlen l | None => 0 end.
Proof.
  unfold fields_rep. destruct (v_ivars v), fs; try contradiction; [|intros [_ ->]; reflexivity]. intros (_ & _ & _ & -> & _). reflexivity.
Qed.
Lemma object_new_rep n w S t c a fj w' o : rep' n w S -> n < limit -> sget S t = Some c -> PN_VTABLE w t = Ok a ->
  t <> PN_TCLOSURE -> t <> PN_TPROTO -> object_new w a fj = Ok (w', o) -> rep' (n + 1) w' S.
Proof.
  intros R L Hc A N1 N2 H. unfold object_new in H.
  destruct (rep_class _ _ _ _ _ _ R t c Hc) as (a2 & v & A2 & Hv & T & P & M & _ & _ & _ & F).
  assert (a2 = a) by congruence. subst a2. rewrite (get_vt_ok _ _ _ Hv) in H. cbn [bind] in H.
  destruct (IS_METACLASS v); [injection H as <- _; apply rep_idle; assumption|].
  destruct (Z.eqb_spec (v_type v) PN_TVTABLE) as [E|E]; [injection H as <- _; apply rep_idle; assumption|].
  injection H as <- _. apply (rep_alloc uniq junk jit PN_lookup n w S); auto.
  intros ty f X. injection X as <- <-. exists c. rewrite T in *. split; [exact Hc|].
  split; [apply (rep_range _ _ _ _ _ _ R t c Hc)|]. repeat (split; [assumption|]).
  rewrite <- (fields_len _ _ F). apply zlen_map_seq. rewrite (fields_len _ _ F). destruct (sc_fields c); [apply zlen_nonneg|lia].
Qed.
Lemma reach_inv n w S : reach n w S -> rep' n w S /\ acyclic S /\ fields_ok S.
Proof.
  induction 1 as [w B|n w S p pa c cl self ivars own w' a _ (R & A & F) L Hc Hp NL SELF VO DO HO HM EQ
    |n w S t c a key val w' m _ (R & A & F) L Hc Ha NK VO EQ|n w S t c a w' o _ (R & A & F) L Hc Ha N1 N2 EQ
    |n w S fuel o f v w' r _ (R & A & F) L EQ|n w S o _ (R & A & F) L NV NO OT].
  - destruct (boot_rep uniq junk jit PN_lookup) as (w2 & B2 & R). assert (w2 = w) by congruence. subst w2.
    split; [exact R|]. split; [apply (boot_acyclic uniq junk)|apply fields_boot].
  - destruct (class_new_ok uniq junk e jit PN_lookup n w S p pa c cl ivars own R L Hc Hp NL VO DO F) with (self := self)
      as (w2 & a2 & E2 & R2 & _); [intros l El; apply (HO l El)|exact SELF|].
    assert (w2 = w') by congruence. subst w2. split; [exact R2|]. split.
    + destruct (rep_look _ _ _ _ _ _ R) as (_ & _ & cv & Ev & _).
      apply (acyclic_class uniq junk S PN_TVTABLE p own c cv); [intros t1 c1 E1; apply (rep_range _ _ _ _ _ _ R t1 c1 E1)|exact Hc|exact Ev|exact A].
    + apply (fields_class S p own c F Hc HO HM).
  - destruct (def_method_ok uniq junk jit PN_lookup n w S t c a key val R L Hc NK Ha VO) as (w2 & m2 & E2 & R2 & _).
    assert (w2 = w' /\ m2 = m) as [-> ->] by (split; congruence). split; [exact R2|]. split; [apply acyclic_def, A|apply fields_def, F].
  - split; [apply (object_new_rep n w S t c a _ w' o R L Hc Ha N1 N2 EQ)|auto].
  - split; [apply (obj_set_rep n w S fuel o f v w' r R L EQ)|auto].
  - split; [|auto]. apply (rep_alloc uniq junk jit PN_lookup n w S o R L). intros ty f E. exfalso. apply (NO ty f E).
Qed.

(** ** Every operation of a history succeeds *)
Theorem C35_operations_succeed n w S t c : reach n w S -> n < limit -> sget S t = Some c -> exists a, PN_VTABLE w t = Ok a /\
  (forall key val, key <> PN_lookup -> value_ok w val -> exists w' m, def_method uniq junk w a key val = Ok (w', Some m)) /\
  (forall fj, exists w' o, object_new w a fj = Ok (w', o)) /\
  (forall cl ivars own, t <> PN_TLOBBY -> value_ok w cl -> decl_ok ivars own -> (forall l, own = Some l -> NoDup l /\ zlen l < 2 ^ 25) ->
     exists w' b, class_new uniq e jit w cl a ivars = Ok (w', b)).
Proof.
  intros RE L Hc. destruct (reach_inv _ _ _ RE) as (R & A & F). destruct (rep_class _ _ _ _ _ _ R t c Hc) as (a & v & Ha & Hv & _).
  exists a. split; [exact Ha|]. split; [|split].
  - intros key val NK VO. destruct (def_method_ok uniq junk jit PN_lookup n w S t c a key val R L Hc NK Ha VO) as (w2 & m2 & E2 & _). eauto.
  - intros fj. unfold object_new. rewrite (get_vt_ok _ _ _ Hv). cbn [bind]. destruct (IS_METACLASS v); [eauto|]. destruct (v_type v =? PN_TVTABLE); eauto.
    unfold alloc. eauto.
  - intros cl ivars own NL VO DO HO.
    destruct (class_new_ok uniq junk e jit PN_lookup n w S t a c cl ivars own R L Hc Ha NL VO DO F) with (self := a) as (w2 & b & E2 & _); eauto.
    intros l El. apply (HO l El).
Qed.

(** ** Dispatch: in every reachable state, any message to any receiver finds
    the definition of the nearest class, or nil when there is none *)
Theorem C35_dispatch_nearest n w S v t c k : reach n w S -> rcv_class w S v t -> sget S t = Some c ->
  exists r, nearest S t k r /\ (forall r', nearest S t k r' -> r' = r) /\
    terminates (fun fuel => bind_msg uniq PN_lookup fuel w v k) (Ok (opt0 r)).
Proof.
  intros RE RC Hc. destruct (reach_inv _ _ _ RE) as (R & A & F).
  destruct (chain_nearest S t k (A t c Hc)) as (r & NR). exists r. split; [exact NR|]. split.
  - intros r' NR'. symmetry. apply (nearest_fun _ _ _ _ NR _ NR').
  - apply (bind_msg_ok uniq junk jit PN_lookup n w S v t k r R RC NR).
Qed.

(** which class a receiver belongs to does not depend on methods *)
Lemma rcv_def n w S t c a key val w' m v tv : rep' n w S -> n < limit -> sget S t = Some c -> PN_VTABLE w t = Ok a -> key <> PN_lookup -> value_ok w val ->
  def_method uniq junk w a key val = Ok (w', Some m) -> rcv_class w S v tv -> rcv_class w' (spec_def S t key m) v tv.
Proof.
  intros R L Hc Ha NK VO EQ RC. destruct (def_method_ok uniq junk jit PN_lookup n w S t c a key val R L Hc NK Ha VO) as (w2 & m2 & E2 & _ & V & K & _).
  assert (w2 = w' /\ m2 = m) as [-> ->] by (split; congruence). clear E2.
  destruct (rep_class _ _ _ _ _ _ R t c Hc) as (a2 & va & Ha2 & Hva & _). assert (a2 = a) by congruence. subst a2.
  destruct RC as [v tv T N|v t1 c1 m1 A1 E1 M1|v t1 c1 A1 E1 M1].
  - apply rcv_instance; [|exact N]. unfold PN_TYPE in *. destruct (PN_IS_INT v); [exact T|]. destruct (PN_IS_BOOL v); [exact T|].
    destruct (PN_IS_NIL v); [exact T|]. destruct (hget w v) as [o|] eqn:Ho; [|discriminate]. injection T as <-.
    assert (NV : v <> a) by (intros ->; rewrite Hva in Ho; injection Ho as <-; apply N; reflexivity).
    destruct (K v o Ho NV) as (o' & Ho' & KO). rewrite Ho'. f_equal.
    destruct o; cbn in KO; try (rewrite KO; reflexivity).
    + destruct KO as (c' & -> & _). reflexivity.
    + destruct KO as (nm & ->). reflexivity.
  - eapply rcv_class_obj; [unfold PN_VTABLE in *; rewrite V; exact A1|unfold spec_def; rewrite sget_upd, E1; reflexivity|]. destruct (t1 =? t); exact M1.
  - eapply rcv_metaclass; [unfold PN_VTABLE in *; rewrite V; exact A1|unfold spec_def; rewrite sget_upd, E1; reflexivity|]. destruct (t1 =? t); exact M1.
Qed.

(** ** A definition affects exactly that class and its non-overriding
    descendants: those answer with the new definition (1); every other
    message, and the same message to every other receiver, finds what it
    found before (2) *)
Theorem C35_definition_effect n w S t c a key val w' m :
  reach n w S -> n < limit -> sget S t = Some c -> PN_VTABLE w t = Ok a -> key <> PN_lookup -> value_ok w val ->
  def_method uniq junk w a key val = Ok (w', Some m) ->
  forall v tv cv k, rcv_class w S v tv -> sget S tv = Some cv ->
    (k = key -> sees S key tv t -> terminates (fun fuel => bind_msg uniq PN_lookup fuel w' v k) (Ok m)) /\
    (k <> key \/ ~ sees S key tv t -> exists r, terminates (fun fuel => bind_msg uniq PN_lookup fuel w v k) (Ok r) /\
                                                terminates (fun fuel => bind_msg uniq PN_lookup fuel w' v k) (Ok r)).
Proof.
  intros RE L Hc Ha NK VO EQ v tv cv k RC Hv.
  assert (RE' : reach (n + 1) w' (spec_def S t key m)) by (eapply reach_def; eassumption).
  destruct (reach_inv _ _ _ RE) as (R & A & F). destruct (reach_inv _ _ _ RE') as (R' & _ & _).
  pose proof (rcv_def n w S t c a key val w' m v tv R L Hc Ha NK VO EQ RC) as RC'. split.
  - intros -> SE. apply (bind_msg_ok uniq junk jit PN_lookup _ _ _ v tv key (Some m) R' RC'). apply nearest_def_sees, SE.
  - intros NS. destruct (chain_nearest S tv k (A tv cv Hv)) as (r & NR). exists (opt0 r). split.
    + apply (bind_msg_ok uniq junk jit PN_lookup n w S v tv k r R RC NR).
    + apply (bind_msg_ok uniq junk jit PN_lookup _ _ _ v tv k r R' RC').
      destruct (Z.eq_dec k key) as [->|N]; [apply nearest_def_blind; [tauto|exact NR]|apply nearest_def_other; assumption].
Qed.

(** ** A message defined as a plain value (not a function) answers that value *)
Theorem C35_value_method n w S t c a key val w' m :
  reach n w S -> n < limit -> sget S t = Some c -> PN_VTABLE w t = Ok a -> key <> PN_lookup -> value_ok w val ->
  (PN_IS_PTR val = true -> exists o, hget w val = Some o /\ otype o <> PN_TCLOSURE /\ otype o <> PN_TPROTO) ->
  def_method uniq junk w a key val = Ok (w', Some m) ->
  forall v tv cv, rcv_class w S v tv -> sget S tv = Some cv -> sees S key tv t ->
  terminates (fun fuel => message uniq PN_lookup fuel w' v key) (Ok (Some val)).
Proof.
  intros RE L Hc Ha NK VO PLAIN EQ v tv cv RC Hv SE.
  destruct (C35_definition_effect n w S t c a key val w' m RE L Hc Ha NK VO EQ v tv cv key RC Hv) as [[N H] _]; auto.
  assert (RE' : reach (n + 1) w' (spec_def S t key m)) by (eapply reach_def; eassumption).
  destruct (reach_inv _ _ _ RE) as (R & A & F). destruct (reach_inv _ _ _ RE') as (R' & _ & _).
  destruct (def_method_ok uniq junk jit PN_lookup n w S t c a key val R L Hc NK Ha VO) as (w2 & m2 & E2 & _ & V & K & D).
  assert (w2 = w' /\ m2 = m) as [-> ->] by (split; congruence). clear E2.
  assert (G : hget w' m = Some (OCl (mkCl F_getter PN_NIL [val] key))).
  { destruct D as [(cl & HC & _)|(NC & _ & sg & fn & HM & [(-> & -> & _)|(nm & -> & HP)])].
    - exfalso. destruct (hget_Some _ _ _ HC) as (j & E & _ & LJ). destruct PLAIN as (o & Ho & N1 & _).
      + rewrite E. apply addr_ptr. pose proof (rep_size _ _ _ _ _ _ R). pose proof (rep_steps _ _ _ _ _ _ R). unfold limit in *. lia.
      + rewrite HC in Ho. injection Ho as <-. apply N1. reflexivity.
    - exact HM.
    - exfalso. destruct (hget_Some _ _ _ HP) as (j & E & _ & LJ). destruct PLAIN as (o & Ho & _ & N2).
      + rewrite E. apply addr_ptr. pose proof (rep_size _ _ _ _ _ _ R). pose proof (rep_steps _ _ _ _ _ _ R). unfold limit in *. lia.
      + rewrite HP in Ho. injection Ho as <-. apply N2. reflexivity. }
  exists N. intros fuel HF. unfold message. rewrite (H fuel HF). cbn [bind].
  rewrite (addr_of_cl uniq junk jit PN_lookup _ _ _ _ _ R' G). cbn [bind]. rewrite G. reflexivity.
Qed.

(** ** Kinship: "isa" and "subclass?" of a heap object agree with the
    inheritance chain *)
Theorem C57_isa n w S v t t0 c0 a0 : reach n w S -> PN_TYPE w v = Ok t -> (exists c, sget S t = Some c) -> sget S t0 = Some c0 -> PN_VTABLE w t0 = Ok a0 ->
  lobby_isa w v a0 = Ok (Some (if t =? t0 then PN_TRUE else PN_FALSE)).
Proof.
  intros RE T (c & Hc) H0 A0. destruct (reach_inv _ _ _ RE) as (R & A & F). unfold lobby_isa. rewrite T. cbn [bind].
  destruct (rep_class _ _ _ _ _ _ R t0 c0 H0) as (a2 & v0 & Ha & Hv & Tv & _). assert (a2 = a0) by congruence. subst a2.
  rewrite (get_vt_ok _ _ _ Hv). cbn [bind]. rewrite Tv, (typecheck_ok uniq junk jit PN_lookup _ _ _ _ _ R H0), (typecheck_ok uniq junk jit PN_lookup _ _ _ _ _ R Hc).
  cbn [negb]. rewrite andb_false_r. reflexivity.
Qed.
Lemma subclass_loop_ok n w S t0 : rep' n w S -> forall t, chain S t ->
  exists b N, (forall fuel, (N <= fuel)%nat -> subclass_loop fuel w t t0 = Ok (if b : bool then PN_TRUE else PN_FALSE)) /\
    (b = true <-> exists c p, sget S t = Some c /\ sc_parent c = Some p /\ ancestor S p t0).
Proof.
  intros R t CH. induction CH as [t c E P|t c p E P CH (b & N & H & HB)].
  - exists false, 1%nat. split.
    + intros [|f] Hf; [lia|]. cbn [subclass_loop]. destruct (rep_class _ _ _ _ _ _ R t c E) as (a & v & Ha & Hv & _ & PV & _).
      rewrite Ha. cbn [bind]. rewrite (get_vt_ok _ _ _ Hv). cbn [bind]. rewrite PV, P. reflexivity.
    + split; [discriminate|]. intros (c1 & p & E1 & P1 & _). congruence.
  - destruct (rep_class _ _ _ _ _ _ R t c E) as (a & v & Ha & Hv & _ & PV & _). rewrite P in PV. cbn [opt0] in PV.
    destruct (rep_parent0 _ _ _ _ _ _ R t c p E P) as (cp & Ep). pose proof (rep_range _ _ _ _ _ _ R p cp Ep) as RG. unfold PN_TNIL in RG.
    destruct (Z.eqb_spec t0 p) as [->|NE].
    + exists true, 1%nat. split.
      * intros [|f] Hf; [lia|]. cbn [subclass_loop]. rewrite Ha. cbn [bind]. rewrite (get_vt_ok _ _ _ Hv). cbn [bind]. rewrite PV.
        destruct (Z.eqb_spec p 0); [lia|]. rewrite Z.eqb_refl. reflexivity.
      * split; [|reflexivity]. intros _. exists c, p. split; [exact E|]. split; [exact P|]. eapply anc_self, Ep.
    + exists b, (1 + N)%nat. split.
      * intros [|f] Hf; [lia|]. cbn [subclass_loop]. rewrite Ha. cbn [bind]. rewrite (get_vt_ok _ _ _ Hv). cbn [bind]. rewrite PV.
        destruct (Z.eqb_spec p 0); [lia|]. destruct (Z.eqb_spec t0 p); [contradiction|]. apply H. lia.
      * rewrite HB. split.
        -- intros (c1 & p1 & E1 & P1 & AN). exists c, p. split; [exact E|]. split; [exact P|]. eapply anc_up; eassumption.
        -- intros (c1 & p1 & E1 & P1 & AN). assert (p1 = p) by congruence. subst p1. inversion AN as [x cx Ex EQ1 EQ2|x cx q y Ex Pq AQ]; subst; [contradiction|].
           exists cx, q. auto.
Qed.
Theorem C57_subclass n w S v t c t0 c0 a0 : reach n w S -> PN_IS_PTR v = true -> PN_TYPE w v = Ok t -> sget S t = Some c ->
  sget S t0 = Some c0 -> PN_VTABLE w t0 = Ok a0 ->
  exists b : bool, terminates (fun fuel => object_subclass fuel w v a0) (Ok (if b then PN_TRUE else PN_FALSE)) /\
    (b = true <-> ancestor S t t0).
Proof.
  intros RE IP T Hc H0 A0. destruct (reach_inv _ _ _ RE) as (R & A & F).
  pose proof (C57_isa n w S v t t0 c0 a0 RE T (ex_intro _ c Hc) H0 A0) as IS.
  destruct (rep_class _ _ _ _ _ _ R t0 c0 H0) as (a2 & v0 & Ha & Hv & Tv & _). assert (a2 = a0) by congruence. subst a2.
  destruct (Z.eqb_spec t t0) as [->|NE].
  - exists true. split.
    + exists 0%nat. intros fuel _. unfold object_subclass. rewrite T. cbn [bind]. rewrite IS. reflexivity.
    + split; [|reflexivity]. intros _. eapply anc_self, Hc.
  - destruct (subclass_loop_ok n w S t0 R t (A t c Hc)) as (b & N & H & HB). exists b. split.
    + exists N. intros fuel HF. unfold object_subclass. rewrite T. cbn [bind]. rewrite IS. cbn [bind].
      change (PN_FALSE =? PN_TRUE) with false. cbv iota. rewrite (get_vt_ok _ _ _ Hv). cbn [bind]. rewrite IP. cbn [negb]. rewrite Tv. apply H, HF.
    + rewrite HB. split.
      * intros (c1 & p & E1 & P1 & AN). eapply anc_up; eassumption.
      * intros AN. inversion AN as [x cx Ex EQ1 EQ2|x cx q y Ex Pq AQ]; subst; [contradiction|]. exists cx, q. auto.
Qed.
(** for immediate values "subclass?" ignores the chain: 5 is an Integer, below
    Number, below Object, but "5 subclass?(Object)" is false in every state *)
Theorem C57_immediate_refuted n w S c0 a0 : reach n w S -> sget S PN_TOBJECT = Some c0 -> PN_VTABLE w PN_TOBJECT = Ok a0 ->
  (exists c, sget S PN_TNUMBER = Some c) ->
  PN_TYPE w (PN_NUM 5) = Ok PN_TNUMBER /\ forall fuel, object_subclass fuel w (PN_NUM 5) a0 = Ok PN_FALSE.
Proof.
  intros RE H0 A0 HN. destruct (reach_inv _ _ _ RE) as (R & A & F). split; [vm_compute; reflexivity|]. intros fuel.
  assert (T : PN_TYPE w (PN_NUM 5) = Ok PN_TNUMBER) by reflexivity.
  pose proof (C57_isa n w S (PN_NUM 5) _ _ c0 a0 RE T HN H0 A0) as IS.
  destruct (rep_class _ _ _ _ _ _ R _ c0 H0) as (a2 & v0 & Ha & Hv & Tv & _). assert (a2 = a0) by congruence. subst a2.
  unfold object_subclass. rewrite T. cbn [bind]. rewrite IS. cbn [bind]. change (PN_TNUMBER =? PN_TOBJECT) with false. cbv iota.
  change (PN_FALSE =? PN_TRUE) with false. cbv iota. rewrite (get_vt_ok _ _ _ Hv). cbn [bind]. change (PN_IS_PTR (PN_NUM 5)) with false. cbn [negb].
  rewrite Tv. reflexivity.
Qed.
End Obj.

(** ** "delegated" registers the metaclass under the class's own number: an
    instance of the new class is looked up in the metaclass, so it answers
    with neither the methods of its class nor those of the parent (whatever
    the state; core/internal.c 137-141 forgets to count the new slot) *)
Theorem C35_delegated_refuted w self vp : hget w self = Some (OVt vp) ->
  exists w' a v, delegated w self = Ok (w', a) /\ hget w' a = Some (OVt v) /\ v_parent v = v_type vp /\
    PN_VTABLE w' (v_type v) = Ok (v_meta v) /\ v_meta v <> a /\
    exists vm, hget w' (v_meta v) = Some (OVt vm) /\ v_parent vm = PN_TVTABLE.
Proof.
  intros HP. unfold delegated. pose proof (rep_a_pos _ _ _ HP) as PP. unfold PN_NIL at 1. destruct (Z.eqb_spec self 0); [lia|].
  rewrite (get_vt_ok _ _ _ HP). cbn [bind]. destruct w as [h V lb]. unfold closure_new, alloc. cbn [w_heap w_vts w_lobby repeat].
  rewrite <- app_assoc. cbn [app]. rewrite app_length. cbn [length].
  rewrite (addr_end h). rewrite hset_tail. cbn [firstn skipn app].
  unfold add_metaclass. unfold get_vt at 1. rewrite hget_tail. cbn [nth_error bind].
  unfold alloc. cbn [w_heap w_vts w_lobby]. rewrite <- app_assoc. cbn [app]. rewrite app_length. cbn [length].
  rewrite hset_tail. cbn [firstn skipn app v_parent v_type v_name v_ivlen v_ivars v_methods v_ctor v_ivfunc].
  unfold with_vts, closure_new, alloc. cbn [w_heap w_vts w_lobby repeat]. rewrite <- (app_assoc h). cbn [app]. rewrite app_length. cbn [length].
  rewrite hset_tail. cbn [firstn skipn app].
  rewrite (set_end (fun x => x) (fun x => (x, x)) V); [|reflexivity|reflexivity]. cbn [bind].
  eexists _, _, _. split; [reflexivity|]. split; [rewrite hget_tail; reflexivity|]. cbn [v_parent v_type v_meta].
  split; [reflexivity|]. split.
  - unfold PN_VTABLE. cbn [w_vts]. pose proof (zlen_nonneg V). rewrite rd_ok by (rewrite zlen_app, zlen_cons; change (zlen (@nil Z)) with 0; lia).
    rewrite znth_app2 by lia. replace (zlen V + PN_TNIL - PN_TNIL - zlen V) with 0 by lia. reflexivity.
  - split; [unfold addr; lia|]. eexists. split; [rewrite hget_tail; reflexivity|]. reflexivity.
Qed.

(** ** Example: two classes, an override, an instance *)
Definition ex_uniq (x : Z) : Z := x * 7 + 3.
Definition ex_junk (x : Z) : Z * Z := (x, 0).
Definition ex_env : env := mkE (fun _ => 0) None.
Definition ex_run : res (option Z * option Z * option Z) :=
  do w <- boot ex_uniq ex_junk 9;
  do (w, A) <- class_new ex_uniq ex_env true w PN_NIL PN_NIL None;
  do (w, B) <- class_new ex_uniq ex_env true w PN_NIL A None;
  do (w, _) <- def_method ex_uniq ex_junk w A 100 (PN_NUM 1);
  do (w, _) <- def_method ex_uniq ex_junk w A 200 (PN_NUM 2);
  do (w, _) <- def_method ex_uniq ex_junk w B 200 (PN_NUM 3);
  do (w, o) <- object_new w B (fun _ => PN_NIL);
  do x <- message ex_uniq 9 20 w o 100;
  do y <- message ex_uniq 9 20 w o 200;
  do z <- message ex_uniq 9 20 w A 200;
  Ok (x, y, z).
Example C35_example : ex_run = Ok (Some (PN_NUM 1), Some (PN_NUM 3), Some PN_NIL).
Proof. vm_compute. reflexivity. Qed.
