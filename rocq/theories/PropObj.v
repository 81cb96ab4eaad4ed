(** Properties C35, C57 (classes and methods).  Specification: ObjSpec.v. *)
From Coq Require Import ZifyBool.
From Verif Require Import Base Arr GArr WordModel WordProofs TupleModel TupleProofs KhashModel KhashProofs TableModel TableProofs.
From Verif Require Import ObjModel ObjSpec PropIvf ObjProofs.
Ltac Zify.zify_post_hook ::= Z.div_mod_to_equations.

(** ** The hierarchy right after start-up *)
Fixpoint boot_classes (l : list (Z * Z)) (n : Z) : list (Z * sclass) :=
  match l with
  | [] => []
  | (t, p) :: r => (t, mkSC (if p =? 0 then None else Some p) (Some n) [] None)
                   :: (n, mkSC (Some PN_TVTABLE) None [] None) :: boot_classes r (n + 1)
  end.
Definition boot_spec0 : sstate := mkSS (PN_TNIL + 45) (boot_classes builtin_types (PN_TNIL + 24)).
(** class Mixin defines "lookup" *)
Definition boot_spec (PN_lookup : Z) : sstate := spec_def boot_spec0 PN_TVTABLE PN_lookup (addr 84).

Section Obj.
Variable uniq : Z -> Z.
Variable junk : Z -> Z * Z.
Variable e : env.
Variable jit : bool.
Variable PN_lookup : Z.
Notation rep' := (rep uniq jit PN_lookup).

(** no cycles: every class reaches the root *)
Inductive chain (S : sstate) : Z -> Prop :=
| chain_root t c : sget S t = Some c -> sc_parent c = None -> chain S t
| chain_up t c p : sget S t = Some c -> sc_parent c = Some p -> chain S p -> chain S t.
Definition acyclic (S : sstate) : Prop := forall t c, sget S t = Some c -> chain S t.
Lemma chain_nearest S t k : chain S t -> exists r, nearest S t k r.
Proof.
  induction 1 as [t c E P|t c p E P _ [r IH]]; destruct (find_key k (sc_methods c)) as [m|] eqn:F.
  - exists (Some m). eapply near_own; eauto.
  - exists None. eapply near_none; eauto.
  - exists (Some m). eapply near_own; eauto.
  - exists r. eapply near_up; eauto.
Qed.
Lemma chain_def S tc k m t : chain S t -> chain (spec_def S tc k m) t.
Proof.
  induction 1 as [t c E P|t c p E P _ IH].
  - eapply chain_root; [unfold spec_def; rewrite sget_upd, E; reflexivity|]. destruct (t =? tc); exact P.
  - eapply chain_up; [unfold spec_def; rewrite sget_upd, E; reflexivity| |exact IH]. destruct (t =? tc); exact P.
Qed.
Lemma acyclic_def S tc k m : acyclic S -> acyclic (spec_def S tc k m).
Proof.
  intros A t c E. unfold spec_def in E. rewrite sget_upd in E. destruct (sget S t) as [c0|] eqn:E0; [|discriminate].
  apply chain_def, (A t c0 E0).
Qed.
Lemma sget_class_old S mx p own t c : (forall t c, sget S t = Some c -> t < s_next S) ->
  sget S t = Some c -> sget (spec_class mx S p own) t = Some c.
Proof.
  intros RG E. specialize (RG t c E). unfold sget, spec_class. cbn [s_classes cfind].
  destruct (Z.eqb_spec (s_next S) t); [lia|]. destruct (Z.eqb_spec (s_next S + 1) t); [lia|]. exact E.
Qed.
Lemma acyclic_class S mx p own cp cm : (forall t c, sget S t = Some c -> t < s_next S) ->
  sget S p = Some cp -> sget S mx = Some cm -> acyclic S -> acyclic (spec_class mx S p own).
Proof.
  intros RG Ep Em A.
  assert (OLD : forall t, chain S t -> chain (spec_class mx S p own) t).
  { induction 1 as [t c E P|t c q E P _ IH].
    - eapply chain_root; [apply (sget_class_old _ _ _ _ _ _ RG E)|exact P].
    - eapply chain_up; [apply (sget_class_old _ _ _ _ _ _ RG E)|exact P|exact IH]. }
  intros t c E. unfold sget, spec_class in E. cbn [s_classes cfind] in E.
  destruct (Z.eqb_spec (s_next S) t) as [<-|N].
  - eapply chain_up; [unfold sget, spec_class; cbn [s_classes cfind]; rewrite Z.eqb_refl; reflexivity|reflexivity|].
    apply OLD, (A p cp Ep).
  - destruct (Z.eqb_spec (s_next S + 1) t) as [<-|N2].
    + eapply chain_up; [unfold sget, spec_class; cbn [s_classes cfind]; destruct (Z.eqb_spec (s_next S) (s_next S + 1)); [lia|]; rewrite Z.eqb_refl; reflexivity|reflexivity|].
      apply OLD, (A mx cm Em).
    + apply OLD, (A t c E).
Qed.

(** ** Start-up *)
Definition w0 : world := match boot_types builtin_types (mkW [] (repeat 0 24) 0) with Ok w => w | _ => mkW [] [] 0 end.
Lemma w0_ok : boot_types builtin_types (mkW [] (repeat 0 24) 0) = Ok w0.
Proof. vm_compute. reflexivity. Qed.
Definition w1 : world := mkW (w_heap w0 ++ [OCl (mkCl F_lookup PN_NIL [] PN_NIL)]) (w_vts w0) (addr 0).
(** a freshly made class *)
Definition plain (w : world) (t : Z) (c : sclass) : Prop :=
  exists a v, PN_VTABLE w t = Ok a /\ hget w a = Some (OVt v) /\ v_type v = t /\ v_parent v = opt0 (sc_parent c) /\
    match sc_meta c with None => v_meta v = PN_NIL | Some m => PN_VTABLE w m = Ok (v_meta v) end /\
    v_methods v = table_empty /\ v_ivars v = None /\ v_ivfunc v = None /\ v_ivlen v = 0 /\
    sc_methods c = [] /\ sc_fields c = None.
Lemma plain_boot : Forall (fun x => plain w1 (fst x) (snd x)) (s_classes boot_spec0).
Proof.
  unfold boot_spec0. cbn [s_classes].
  repeat (apply Forall_cons || apply Forall_nil);
    (eexists; eexists; repeat (split; [vm_compute; reflexivity|]); vm_compute; reflexivity).
Qed.

Lemma cfind_In t l c : cfind t l = Some c -> In (t, c) l.
Proof.
  induction l as [|[a b] l IH]; [discriminate|]. cbn [cfind]. destruct (Z.eqb_spec a t) as [->|N].
  - intros X. injection X as ->. left. reflexivity.
  - right. auto.
Qed.
Lemma plain_class t c : sget boot_spec0 t = Some c -> plain w1 t c.
Proof.
  intros E. apply cfind_In in E. pose proof plain_boot as F. rewrite Forall_forall in F. apply (F _ E).
Qed.
Definition boot_facts (x : Z * sclass) : bool :=
  let '(t, c) := x in
  (PN_TNIL <=? t) && (t <? s_next boot_spec0) &&
  match sc_meta c with
  | None => match sc_parent c with Some p => p =? PN_TVTABLE | None => false end
  | Some m => match sget boot_spec0 m with Some cm => match sc_meta cm with None => true | _ => false end | None => false end
  end &&
  match sc_parent c with None => true | Some p => match sget boot_spec0 p with Some _ => true | None => false end end.
Lemma boot_facts_ok t c : sget boot_spec0 t = Some c -> boot_facts (t, c) = true.
Proof.
  intros E. apply cfind_In in E. assert (F : forallb boot_facts (s_classes boot_spec0) = true) by (vm_compute; reflexivity).
  rewrite forallb_forall in F. apply (F _ E).
Qed.
Lemma w1_noobj x ty f : hget w1 x <> Some (OObj ty f).
Proof.
  intros H. destruct (hget_Some _ _ _ H) as (n & -> & E & _).
  assert (F : forallb (fun o => match o with OObj _ _ => false | _ => true end) (w_heap w1) = true) by (vm_compute; reflexivity).
  rewrite forallb_forall in F. apply nth_error_In in E. specialize (F _ E). discriminate.
Qed.
Definition mixin_addr : Z := Eval vm_compute in match PN_VTABLE w1 PN_TVTABLE with Ok a => a | _ => 0 end.
Definition mixin_vt : vtable := match hget w1 mixin_addr with Some (OVt v) => v | _ => mkVt 0 0 0 0 None table_empty 0 0 None end.

Lemma put_split (t : table) m k x : denotes uniq t m -> n_occupied t < limit -> exists t1 i r t2,
  kh_put Z.eqb (pn_hash uniq) junk t k = Ok (t1, i, r) /\ kh_set_val t1 i x = Ok t2 /\
  denotes uniq t2 (upd_map m k x) /\ n_occupied t2 <= n_occupied t + 1.
Proof.
  intros D L. destruct (put_den uniq junk t m k x D L) as (t2 & E2 & D2 & O2).
  unfold table_put in E2. destruct (kh_put Z.eqb (pn_hash uniq) junk t k) as [[[t1 i] r]| |]; try discriminate.
  cbn [bind] in E2. exists t1, i, r, t2. auto.
Qed.
Theorem boot_rep : exists w, boot uniq junk PN_lookup = Ok w /\ rep' 1 w (boot_spec PN_lookup).
Proof.
  unfold boot. rewrite w0_ok. cbn [bind].
  assert (A0 : PN_VTABLE w0 PN_TLOBBY = Ok (addr 0)) by (vm_compute; reflexivity). rewrite A0. cbn [bind].
  assert (A1 : PN_VTABLE (mkW (w_heap w0) (w_vts w0) (addr 0)) PN_TVTABLE = Ok mixin_addr) by (vm_compute; reflexivity).
  rewrite A1. cbn [bind]. unfold closure_new, alloc. cbn [w_heap w_vts w_lobby repeat].
  assert (L0 : length (w_heap w0) = 84%nat) by (vm_compute; reflexivity). rewrite L0.
  change (mkW (w_heap w0 ++ [OCl (mkCl F_lookup PN_NIL [] PN_NIL)]) (w_vts w0) (addr 0)) with w1.
  assert (Hv : hget w1 mixin_addr = Some (OVt mixin_vt)) by (vm_compute; reflexivity).
  assert (EM : v_methods mixin_vt = table_empty) by (vm_compute; reflexivity).
  assert (MT : v_type mixin_vt = PN_TVTABLE) by (vm_compute; reflexivity).
  assert (Hf : hget w1 (addr 84) = Some (OCl (mkCl F_lookup PN_NIL [] PN_NIL))) by (vm_compute; reflexivity).
  assert (NF : addr 84 <> mixin_addr) by (vm_compute; discriminate).
  assert (L1 : length (w_heap w1) = 85%nat) by (vm_compute; reflexivity).
  assert (LE : n_occupied table_empty < limit) by (unfold limit; cbn; lia).
  destruct (put_split table_empty _ PN_lookup (addr 84) (den_empty uniq) LE) as (t1 & k & r & t2 & EP & E2 & D2 & O2).
  unfold def_method. rewrite (hget_type _ _ _ Hv). cbn [bind otype]. rewrite Z.eqb_refl. cbn [negb].
  rewrite (get_vt_ok _ _ _ Hv). cbn [bind]. rewrite EM, EP. cbn [bind].
  unfold set_methods at 1. rewrite (get_vt_ok _ _ _ Hv). cbn [bind].
  match goal with |- context [hset w1 mixin_addr (OVt ?vv)] => set (v1 := vv) end.
  set (wa := hset w1 mixin_addr (OVt v1)).
  assert (Ga : forall x, x <> mixin_addr -> hget wa x = hget w1 x) by (intros x N; apply (hget_hset_other _ _ _ _ _ Hv); congruence).
  assert (Gm : hget wa mixin_addr = Some (OVt v1)) by apply (hget_hset_same _ _ _ _ Hv).
  assert (IP : PN_IS_PTR (addr 84) = true) by (vm_compute; reflexivity).
  unfold ptr_type_is. rewrite IP, (Ga _ NF), Hf. cbn [otype bind]. rewrite Z.eqb_refl. cbn [negb].
  unfold set_clname. rewrite (Ga _ NF), Hf. cbn [bind c_fn c_sig c_data].
  set (cl' := mkCl F_lookup PN_NIL [] PN_lookup).
  set (wb := hset wa (addr 84) (OCl cl')).
  assert (Hfa : hget wa (addr 84) = Some (OCl (mkCl F_lookup PN_NIL [] PN_NIL))) by (rewrite (Ga _ NF); exact Hf).
  assert (Gb : forall x, x <> addr 84 -> hget wb x = hget wa x) by (intros x N; apply (hget_hset_other _ _ _ _ _ Hfa); congruence).
  assert (Gbm : hget wb mixin_addr = Some (OVt v1)) by (rewrite Gb by congruence; exact Gm).
  rewrite (get_vt_ok _ _ _ Gbm). cbn [bind]. change (v_methods v1) with t1. rewrite E2. cbn [bind].
  unfold set_methods. rewrite (get_vt_ok _ _ _ Gbm). cbn [bind].
  match goal with |- context [hset wb mixin_addr (OVt ?vv)] => set (v2 := vv) end.
  set (wc := hset wb mixin_addr (OVt v2)).
  exists wc. split; [reflexivity|].
  assert (Gc : forall x, x <> mixin_addr -> hget wc x = hget wb x) by (intros x N; apply (hget_hset_other _ _ _ _ _ Gbm); congruence).
  assert (Gcm : hget wc mixin_addr = Some (OVt v2)) by apply (hget_hset_same _ _ _ _ Gbm).
  assert (Gcf : hget wc (addr 84) = Some (OCl cl')) by (rewrite (Gc _ NF); apply (hget_hset_same _ _ _ _ Hfa)).
  assert (Gco : forall x, x <> mixin_addr -> x <> addr 84 -> hget wc x = hget w1 x) by (intros x N N2; rewrite (Gc _ N), (Gb _ N2); apply Ga, N).
  assert (VV : w_vts wc = w_vts w1) by (unfold wc, wb, wa; rewrite !hset_vts; reflexivity).
  assert (PV : forall x, PN_VTABLE wc x = PN_VTABLE w1 x) by (intros x; unfold PN_VTABLE; rewrite VV; reflexivity).
  assert (LL : w_lobby wc = addr 0) by (unfold wc, wb, wa; rewrite !hset_lobby; reflexivity).
  assert (LH : length (w_heap wc) = 85%nat).
  { unfold wc. rewrite (hset_len _ _ _ _ Gbm). unfold wb. rewrite (hset_len _ _ _ _ Hfa). unfold wa. rewrite (hset_len _ _ _ _ Hv). exact L1. }
  assert (VM : PN_VTABLE w1 PN_TVTABLE = Ok mixin_addr) by exact A1.
  assert (SG : forall t c, sget (boot_spec PN_lookup) t = Some c -> exists c0, sget boot_spec0 t = Some c0 /\
     sc_parent c = sc_parent c0 /\ sc_meta c = sc_meta c0 /\ sc_fields c = sc_fields c0 /\
     ((t <> PN_TVTABLE /\ c = c0) \/ (t = PN_TVTABLE /\ sc_methods c = (PN_lookup, addr 84) :: drop_key PN_lookup (sc_methods c0)))).
  { intros t c E. unfold boot_spec, spec_def in E. rewrite sget_upd in E. destruct (sget boot_spec0 t) as [c0|]; [|discriminate].
    injection E as <-. exists c0. split; [reflexivity|]. destruct (Z.eqb_spec t PN_TVTABLE); cbn; intuition. }
  assert (SG' : forall t c0, sget boot_spec0 t = Some c0 -> exists c, sget (boot_spec PN_lookup) t = Some c /\ sc_meta c = sc_meta c0 /\
     (t = PN_TVTABLE -> sc_methods c = (PN_lookup, addr 84) :: drop_key PN_lookup (sc_methods c0))).
  { intros t c0 E. unfold boot_spec, spec_def. rewrite sget_upd, E. eexists. split; [reflexivity|].
    destruct (Z.eqb_spec t PN_TVTABLE); cbn; intuition. }
  assert (UNI : forall t c0, sget boot_spec0 t = Some c0 -> PN_VTABLE w1 t = Ok mixin_addr -> t = PN_TVTABLE).
  { intros t c0 E0 EA. destruct (plain_class t c0 E0) as (a & v & A & H & T & _).
    assert (a = mixin_addr) by congruence. subst a. assert (v = mixin_vt) by congruence. subst v. rewrite <- T. exact MT. }
  constructor.
  - intros t c E. destruct (SG t c E) as (c0 & E0 & P1 & M1 & F1 & [(N & ->)|(-> & MM)]);
      destruct (plain_class _ c0 E0) as (a & v & A & H & T & P & M & Me & I1 & I2 & I3 & SM & SF).
    + exists a, v. rewrite PV. split; [exact A|].
      assert (a <> mixin_addr) by (intros ->; apply N; apply (UNI _ _ E0 A)).
      assert (a <> addr 84) by (intros ->; congruence).
      rewrite Gco by assumption. split; [exact H|]. split; [exact T|]. split; [exact P|].
      split; [destruct (sc_meta c0); rewrite ?PV; exact M|]. rewrite Me, SM. split; [apply (den_ext _ _ _ _ (den_empty uniq)); reflexivity|].
      split; [cbn; lia|]. split; [discriminate|]. unfold fields_rep. rewrite I1, SF. auto.
    + assert (a = mixin_addr) by congruence. subst a. assert (v = mixin_vt) by congruence. subst v.
      exists mixin_addr, v2. rewrite PV. split; [exact A|]. split; [exact Gcm|]. cbn [v2 v1 v_type v_parent v_meta v_methods].
      split; [exact T|]. rewrite P1, M1. split; [exact P|]. split; [destruct (sc_meta c0); rewrite ?PV; exact M|].
      split; [|split; [cbn in O2; lia|split]].
      * eapply den_ext; [exact D2|]. intros k0. rewrite MM, SM. unfold upd_map. cbn [drop_key filter find_key fst snd].
        rewrite (Z.eqb_sym PN_lookup k0). destruct (k0 =? PN_lookup); reflexivity.
      * intros k0 m0. rewrite MM, SM. cbn [drop_key filter find_key fst snd].
        destruct (PN_lookup =? k0); [|discriminate]. intros X. injection X as <-. eauto.
      * rewrite F1, SF. unfold fields_rep. cbn [v_ivars v_ivfunc v_ivlen v2 v1]. rewrite I1. auto.
  - rewrite VV. vm_compute. reflexivity.
  - intros t c E. destruct (SG t c E) as (c0 & E0 & _). pose proof (boot_facts_ok _ _ E0) as F. unfold boot_facts in F.
    apply andb_prop in F. destruct F as [F _]. apply andb_prop in F. destruct F as [F _]. change (s_next (boot_spec PN_lookup)) with (s_next boot_spec0). lia.
  - intros t c m E M. destruct (SG t c E) as (c0 & E0 & P1 & M1 & _). pose proof (boot_facts_ok _ _ E0) as F. unfold boot_facts in F.
    apply andb_prop in F. destruct F as [F _]. apply andb_prop in F. destruct F as [_ F]. rewrite M1 in M. rewrite M in F.
    destruct (sget boot_spec0 m) as [cm|] eqn:Em; [|discriminate]. destruct (SG' m cm Em) as (c1 & EE & MM & _).
    exists c1. split; [exact EE|]. rewrite MM. destruct (sc_meta cm); [discriminate|reflexivity].
  - intros t c E M. destruct (SG t c E) as (c0 & E0 & P1 & M1 & _). pose proof (boot_facts_ok _ _ E0) as F. unfold boot_facts in F.
    apply andb_prop in F. destruct F as [F _]. apply andb_prop in F. destruct F as [_ F]. rewrite M1 in M. rewrite M in F.
    rewrite P1. destruct (sc_parent c0) as [p|]; [|discriminate]. apply Z.eqb_eq in F. congruence.
  - intros t c p E P. destruct (SG t c E) as (c0 & E0 & P1 & M1 & _). pose proof (boot_facts_ok _ _ E0) as F. unfold boot_facts in F.
    apply andb_prop in F. destruct F as [_ F]. rewrite P1 in P. rewrite P in F.
    destruct (sget boot_spec0 p) as [cp|] eqn:Em; [|discriminate]. destruct (SG' p cp Em) as (c1 & EE & _). eauto.
  - rewrite LH. lia.
  - unfold limit. lia.
  - rewrite PV, LL. split; [vm_compute; reflexivity|]. destruct (sget boot_spec0 PN_TLOBBY) as [c0|] eqn:E0; [|vm_compute in E0; discriminate].
    destruct (SG' _ _ E0) as (c1 & EE & _). eauto.
  - intros x ty f H. exfalso. destruct (Z.eq_dec x mixin_addr) as [->|N]; [congruence|]. destruct (Z.eq_dec x (addr 84)) as [->|N2]; [congruence|].
    rewrite Gco in H by assumption. apply (w1_noobj _ _ _ H).
  - destruct (sget boot_spec0 PN_TVTABLE) as [c0|] eqn:E0; [|vm_compute in E0; discriminate].
    destruct (SG' _ _ E0) as (c1 & EE & _ & MM). exists (addr 84), cl', c1. split; [exact EE|]. rewrite (MM eq_refl).
    split; [cbn [find_key fst snd]; rewrite Z.eqb_refl; reflexivity|]. split; [exact Gcf|reflexivity].
  - intros t c E N. destruct (SG t c E) as (c0 & E0 & _ & _ & _ & [(_ & ->)|(-> & _)]); [|contradiction].
    destruct (plain_class _ c0 E0) as (a & v & _ & _ & _ & _ & _ & _ & _ & _ & _ & SM & _). rewrite SM. reflexivity.
Qed.
Lemma boot_acyclic : acyclic (boot_spec PN_lookup).
Proof.
  apply acyclic_def. 
  assert (ROOT : chain boot_spec0 PN_TLOBBY) by (eapply chain_root; [vm_compute; reflexivity|reflexivity]).
  assert (O1 : chain boot_spec0 PN_TOBJECT) by (eapply chain_up; [vm_compute; reflexivity|reflexivity|exact ROOT]).
  assert (V1 : chain boot_spec0 PN_TVTABLE) by (eapply chain_up; [vm_compute; reflexivity|reflexivity|exact ROOT]).
  assert (N1 : chain boot_spec0 PN_TNUMBER) by (eapply chain_up; [vm_compute; reflexivity|reflexivity|exact O1]).
  intros t c E. pose proof E as E'. apply cfind_In in E.
  assert (F : Forall (fun x => sc_parent (snd x) = None \/ sc_parent (snd x) = Some PN_TLOBBY \/ sc_parent (snd x) = Some PN_TOBJECT \/
     sc_parent (snd x) = Some PN_TVTABLE \/ sc_parent (snd x) = Some PN_TNUMBER) (s_classes boot_spec0)).
  { unfold boot_spec0. cbn [s_classes]. repeat (apply Forall_cons || apply Forall_nil); vm_compute; intuition. }
  rewrite Forall_forall in F. specialize (F _ E). cbn [snd] in F.
  destruct F as [F|[F|[F|[F|F]]]]; [eapply chain_root; eauto| | | |]; (eapply chain_up; [exact E'|exact F|assumption]).
Qed.
End Obj.
