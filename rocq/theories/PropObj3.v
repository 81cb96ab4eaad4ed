(** More of C35 and C57: "can", "kind", methods that are functions, and the
    built-in hierarchy, for every history (PropObj2.reach). *)
From Coq Require Import ZifyBool.
From Verif Require Import Base Arr GArr WordModel WordProofs TupleModel TupleProofs KhashModel KhashProofs TableModel TableProofs.
From Verif Require Import ObjModel ObjSpec PropIvf ObjProofs PropObj PropObj2.
Ltac Zify.zify_post_hook ::= Z.div_mod_to_equations.

Section Obj.
Variable uniq : Z -> Z.
Variable junk : Z -> Z * Z.
Variable e : env.
Variable jit : bool.
Variable PN_lookup : Z.
Notation reach := (reach uniq junk e jit PN_lookup).
Notation inv := (reach_inv uniq junk e jit PN_lookup).

(** "can" answers true exactly when some class of the receiver's chain defines the message *)
Theorem C35_can n w S v t c k : reach n w S -> rcv_class w S v t -> sget S t = Some c ->
  (exists m, nearest S t k (Some m)) /\ terminates (fun fuel => lobby_can uniq PN_lookup fuel w v k) (Ok PN_TRUE) \/
  nearest S t k None /\ terminates (fun fuel => lobby_can uniq PN_lookup fuel w v k) (Ok PN_FALSE).
Proof.
  intros RE RC Hc. destruct (inv _ _ _ RE) as (R & A & F).
  destruct (C35_dispatch_nearest uniq junk e jit PN_lookup n w S v t c k RE RC Hc) as (r & NR & _ & N & H).
  destruct r as [m|].
  - left. split; [eauto|]. exists N. intros fuel HF. unfold lobby_can. rewrite (H fuel HF). cbn [bind opt0].
    assert (MP : 65536 <= m).
    { clear - NR R. remember (Some m) as r eqn:Er. induction NR as [t k c x E F0|t k c p r E F0 P _ IH|t k c E F0 P]; [|auto|discriminate].
      injection Er as ->. apply (method_pos uniq jit PN_lookup n w S t c k m R E F0). }
    destruct (Z.eqb_spec m PN_NIL) as [E|E]; [unfold PN_NIL in E; lia|reflexivity].
  - right. split; [exact NR|]. exists N. intros fuel HF. unfold lobby_can. rewrite (H fuel HF). reflexivity.
Qed.

(** "kind" answers the class object of the receiver's type *)
Theorem C57_kind n w S v t c : reach n w S -> PN_TYPE w v = Ok t -> sget S t = Some c ->
  exists a vt, lobby_kind w v = Ok a /\ PN_VTABLE w t = Ok a /\ hget w a = Some (OVt vt) /\ v_type vt = t.
Proof.
  intros RE T Hc. destruct (inv _ _ _ RE) as (R & A & F).
  destruct (rep_class _ _ _ _ _ _ R t c Hc) as (a & vt & Ha & Hv & Tv & _).
  exists a, vt. unfold lobby_kind. rewrite T. cbn [bind]. rewrite (typecheck_ok uniq junk jit PN_lookup _ _ _ _ _ R Hc). cbn [negb]. auto.
Qed.

(** a message defined as the function that returns its receiver does so; a
    message defined as any other native function without a signature calls it *)
Theorem C35_function_method n w S t c a key val w' m fn d nm :
  reach n w S -> n < limit -> sget S t = Some c -> PN_VTABLE w t = Ok a -> key <> PN_lookup -> value_ok w val ->
  hget w val = Some (OCl (mkCl fn PN_NIL d nm)) -> fn <> F_getter ->
  def_method uniq junk w a key val = Ok (w', Some m) ->
  forall v tv cv, rcv_class w S v tv -> sget S tv = Some cv -> sees S key tv t ->
  m = val /\
  terminates (fun fuel => message uniq PN_lookup fuel w' v key) (Ok (match fn with F_no_call => Some v | _ => None end)).
Proof.
  intros RE L Hc Ha NK VO HV NG EQ v tv cv RC Hv SE.
  destruct (C35_definition_effect uniq junk e jit PN_lookup n w S t c a key val w' m RE L Hc Ha NK VO EQ v tv cv key RC Hv) as [[N H] _]; auto.
  assert (RE' : reach (n + 1) w' (spec_def S t key m)) by (eapply reach_def; eassumption).
  destruct (inv _ _ _ RE) as (R & A & F). destruct (inv _ _ _ RE') as (R' & _ & _).
  destruct (def_method_ok uniq junk jit PN_lookup n w S t c a key val R L Hc NK Ha VO) as (w2 & m2 & E2 & _ & V & K & D).
  assert (w2 = w' /\ m2 = m) as [-> ->] by (split; congruence). clear E2.
  assert (G : m = val /\ exists nm', hget w' val = Some (OCl (mkCl fn PN_NIL d nm'))).
  { destruct D as [(cl & HC & ->)|(NC & _)].
    - split; [reflexivity|]. assert (NA : val <> a).
      { destruct (rep_class _ _ _ _ _ _ R t c Hc) as (a2 & va & Ha2 & Hva & _). assert (a2 = a) by congruence. subst a2. intros ->. congruence. }
      destruct (K val _ HV NA) as (o' & Ho' & (c' & -> & X1 & X2 & X3)). cbn in X1, X2, X3. destruct c' as [f1 s1 d1 n1]. cbn in *. subst. eauto.
    - exfalso. apply (NC (mkCl fn PN_NIL d nm)); [|exact HV]. destruct (hget_Some _ _ _ HV) as (j & E & _ & LJ). rewrite E. apply addr_ptr.
      pose proof (rep_size _ _ _ _ _ _ R). pose proof (rep_steps _ _ _ _ _ _ R). unfold limit in *. lia. }
  destruct G as [-> (nm' & G)]. split; [reflexivity|].
  exists N. intros fuel HF. unfold message. rewrite (H fuel HF). cbn [bind].
  rewrite (addr_of_cl uniq junk jit PN_lookup _ _ _ _ _ R' G). cbn [bind]. rewrite G. cbn [c_sig c_fn]. rewrite Z.eqb_refl.
  destruct fn; try reflexivity. congruence.
Qed.

(** the documented hierarchy of the built-in classes, written out independently
    of the start-up code: everything is an Object except Lobby, Mixin and
    Object themselves; Double and Integer are Numbers *)
Definition builtin_parent (t : Z) : option Z :=
  if t =? PN_TLOBBY then None
  else if (t =? PN_TOBJECT) || (t =? PN_TVTABLE) then Some PN_TLOBBY
  else if (t =? PN_TINTEGER) || (t =? PN_TDOUBLE) then Some PN_TNUMBER
  else Some PN_TOBJECT.
Definition is_builtin (t : Z) : bool :=
  existsb (Z.eqb t) [PN_TNIL; PN_TNUMBER; PN_TBOOLEAN; PN_TSTRING; PN_TTABLE; PN_TCLOSURE; PN_TTUPLE; PN_TSTATE;
                     PN_TFILE; PN_TOBJECT; PN_TVTABLE; PN_TSOURCE; PN_TBYTES; PN_TPROTO; PN_TLOBBY; PN_TCONT;
                     PN_TLICK; PN_TERROR; PN_TWEAK; PN_TINTEGER; PN_TDOUBLE].
Theorem C57_builtin_hierarchy n w S t : reach n w S -> is_builtin t = true ->
  exists c, sget S t = Some c /\ sc_parent c = builtin_parent t.
Proof.
  intros RE BT. induction RE as [w B|n w S p pa c cl self ivars own w' a RE IH L Hc Hp NL SELF VO DO HO HM EQ
    |n w S t1 c a key val w' m _ IH L Hc Ha NK VO EQ|n w S t1 c a w' o _ IH L Hc Ha N1 N2 EQ
    |n w S fuel o f v w' r _ IH L EQ|n w S o _ IH L NV NO OT]; auto.
  - unfold boot_spec, spec_def. rewrite sget_upd.
    assert (G : exists c, sget boot_spec0 t = Some c /\ sc_parent c = builtin_parent t).
    { unfold is_builtin in BT. apply existsb_exists in BT. destruct BT as (x & IN & E). apply Z.eqb_eq in E. subst x.
      cbn [In] in IN. repeat (destruct IN as [<-|IN]; [eexists; vm_compute; split; reflexivity|]). destruct IN. }
    destruct G as (c & -> & PC). eexists. split; [reflexivity|]. destruct (t =? PN_TVTABLE); exact PC.
  - destruct IH as (c1 & E1 & P1). destruct (inv _ _ _ RE) as (R & _). exists c1. split; [|exact P1].
    apply (sget_class_old uniq junk S PN_TVTABLE p own t c1); [|exact E1]. intros t2 c2 E2. apply (rep_range _ _ _ _ _ _ R t2 c2 E2).
  - destruct IH as (c1 & E1 & P1). unfold spec_def. rewrite sget_upd, E1. eexists. split; [reflexivity|]. destruct (t =? t1); exact P1.
Qed.
End Obj.
Print Assumptions C35_can.
Print Assumptions C57_kind.
Print Assumptions C35_function_method.
Print Assumptions C57_builtin_hierarchy.

(** ** Examples *)
Example C35_can_example :
  (do w <- boot ex_uniq ex_junk 9;
   do (w, A) <- class_new ex_uniq ex_env true w PN_NIL PN_NIL None;
   do (w, _) <- def_method ex_uniq ex_junk w A 100 (PN_NUM 1);
   do (w, o) <- object_new w A (fun _ => PN_NIL);
   do x <- lobby_can ex_uniq 9 20 w o 100;
   do y <- lobby_can ex_uniq 9 20 w o 101;
   do k <- lobby_kind w o;
   Ok (x, y, k =? A)) = Ok (PN_TRUE, PN_FALSE, true).
Proof. vm_compute. reflexivity. Qed.
