(** The class model of ObjModel.v represents the hierarchy of ObjSpec.v. *)
From Coq Require Import ZifyBool.
From Verif Require Import Base Arr GArr WordModel WordProofs TupleModel TupleProofs KhashModel KhashProofs TableModel TableProofs.
From Verif Require PropTable PropTuple2.
From Verif Require Import ObjModel ObjSpec PropIvf.
Ltac Zify.zify_post_hook ::= Z.div_mod_to_equations.

(** ** The heap *)
Lemma slot_addr n : slot (addr n) = Some n.
Proof.
  unfold slot, addr. destruct (Z.leb_spec 65536 (65536 + 16 * Z.of_nat n)); [|lia].
  assert (X : (65536 + 16 * Z.of_nat n - 65536) mod 16 =? 0 = true) by lia. rewrite X. cbn [andb]. f_equal. lia.
Qed.
Lemma slot_Some a n : slot a = Some n -> a = addr n.
Proof.
  unfold slot, addr. destruct ((65536 <=? a) && ((a - 65536) mod 16 =? 0)) eqn:E; [|discriminate].
  intros H. injection H as <-. apply andb_prop in E. lia.
Qed.
Lemma hget_Some w a o : hget w a = Some o -> exists n, a = addr n /\ nth_error (w_heap w) n = Some o /\ (n < length (w_heap w))%nat.
Proof.
  unfold hget. destruct (slot a) as [n|] eqn:E; [|discriminate]. intros H. exists n. split; [apply slot_Some, E|].
  split; [exact H|]. apply nth_error_Some. congruence.
Qed.
Lemma hget_addr w n : hget w (addr n) = nth_error (w_heap w) n.
Proof. unfold hget. rewrite slot_addr. reflexivity. Qed.
Lemma addr_inj n m : addr n = addr m -> n = m.
Proof. unfold addr. lia. Qed.
Lemma addr_ptr n : (Z.of_nat n < 2 ^ 50) -> PN_IS_PTR (addr n) = true.
Proof.
  intros H. unfold addr. rewrite PN_IS_PTR_eq by (unfold two64; lia).
  unfold two64; lia.
Qed.

Definition heap_app (w : world) (l : list obj) : world := mkW (w_heap w ++ l) (w_vts w) (w_lobby w).
Lemma hget_app w l a o : hget w a = Some o -> hget (heap_app w l) a = Some o.
Proof.
  intros H. destruct (hget_Some _ _ _ H) as (n & -> & E & L). rewrite hget_addr. cbn [heap_app w_heap].
  rewrite nth_error_app1 by exact L. exact E.
Qed.
Lemma hget_hset_same w a o o' : hget w a = Some o -> hget (hset w a o') a = Some o'.
Proof.
  intros H. destruct (hget_Some _ _ _ H) as (n & -> & E & L). unfold hset. rewrite slot_addr, hget_addr. cbn [w_heap].
  rewrite nth_error_app2 by (rewrite firstn_length; lia). rewrite firstn_length, Nat.min_l by lia.
  rewrite Nat.sub_diag. reflexivity.
Qed.
Lemma hget_hset_other w a b o o' : hget w a = Some o -> a <> b -> hget (hset w a o') b = hget w b.
Proof.
  intros H N. destruct (hget_Some _ _ _ H) as (n & -> & E & L). unfold hset. rewrite slot_addr.
  unfold hget. destruct (slot b) as [m|] eqn:Eb; [|reflexivity]. apply slot_Some in Eb. subst b. cbn [w_heap].
  assert (NM : n <> m) by congruence.
  destruct (Nat.lt_ge_cases m n) as [M|M].
  - rewrite nth_error_app1 by (rewrite firstn_length; lia). apply nth_error_firstn. exact M.
  - rewrite nth_error_app2 by (rewrite firstn_length; lia). rewrite firstn_length, Nat.min_l by lia.
    destruct (m - n)%nat as [|j] eqn:Ej; [lia|]. cbn [nth_error]. rewrite nth_error_skipn. f_equal. lia.
Qed.
Lemma hset_vts w a o : w_vts (hset w a o) = w_vts w.
Proof. unfold hset. destruct (slot a); reflexivity. Qed.
Lemma hset_lobby w a o : w_lobby (hset w a o) = w_lobby w.
Proof. unfold hset. destruct (slot a); reflexivity. Qed.
Lemma hset_len w a o o' : hget w a = Some o -> length (w_heap (hset w a o')) = length (w_heap w).
Proof.
  intros H. destruct (hget_Some _ _ _ H) as (n & -> & E & L). unfold hset. rewrite slot_addr. cbn [w_heap].
  rewrite app_length, firstn_length, Nat.min_l by lia. cbn [length]. rewrite skipn_length. lia.
Qed.
Lemma hset_heap h vts lob k o : hset (mkW h vts lob) (addr k) o = mkW (firstn k h ++ o :: skipn (S k) h) vts lob.
Proof. unfold hset. rewrite slot_addr. reflexivity. Qed.
(** writing into the freshly allocated tail of the heap *)
Lemma hset_tail h l vts lob k o : hset (mkW (h ++ l) vts lob) (addr (length h + k)) o =
  mkW (h ++ firstn k l ++ o :: skipn (S k) l) vts lob.
Proof.
  rewrite hset_heap. f_equal. rewrite firstn_app_2, <- app_assoc. f_equal. f_equal. f_equal.
  replace (S (length h + k)) with (length h + S k)%nat by lia.
  rewrite skipn_app, skipn_all2 by lia. cbn [app]. f_equal. lia.
Qed.
Lemma hget_tail h l vts lob k : hget (mkW (h ++ l) vts lob) (addr (length h + k)) = nth_error l k.
Proof. rewrite hget_addr. cbn [w_heap]. rewrite nth_error_app2 by lia. f_equal. lia. Qed.
Lemma addr_end {A} (h : list A) : addr (length h) = addr (length h + 0).
Proof. f_equal. lia. Qed.

Definition same_world_type (w w' : world) := forall a o, hget w a = Some o -> exists o', hget w' a = Some o' /\ otype o' = otype o.

Lemma get_vt_ok w a v : hget w a = Some (OVt v) -> get_vt w a = Ok v.
Proof. intros H. unfold get_vt. rewrite H. reflexivity. Qed.
Lemma rep_a_pos w a o : hget w a = Some o -> 65536 <= a.
Proof. intros H. destruct (hget_Some _ _ _ H) as (n & -> & _). unfold addr. lia. Qed.
Lemma hget_type w a o : hget w a = Some o -> PN_TYPE w a = Ok (otype o).
Proof.
  intros H. destruct (hget_Some _ _ _ H) as (n & -> & _). unfold PN_TYPE. rewrite PN_IS_INT_eq, PN_IS_BOOL_eq.
  unfold PN_IS_NIL, PN_NIL. replace (addr n mod 2 =? 1) with false by (unfold addr; lia).
  replace (2 <=? addr n mod 4) with false by (unfold addr; lia). replace (addr n =? 0) with false by (unfold addr; lia).
  rewrite H. reflexivity.
Qed.

Section Rep.
Variable uniq : Z -> Z.
Variable junk : Z -> Z * Z.
Variable e : env.
Variable jit : bool.
Variable PN_lookup : Z.

Definition fields_rep (v : vtable) (fs : option (list Z)) : Prop :=
  match v_ivars v, fs with
  | None, None => v_ivfunc v = None /\ v_ivlen v = 0
  | Some iv, Some l => wf iv /\ 1 <= t_alloc iv /\ contents iv = l /\ v_ivlen v = zlen l /\
      v_ivfunc v = (if jit then Some (x86_ivars (map (PN_UNIQ uniq) l)) else None)
  | _, _ => False
  end.
Definition opt0 (o : option Z) : Z := match o with Some x => x | None => 0 end.

(** the world [w] represents class [t] as [c] *)
Definition class_rep (n : Z) (w : world) (t : Z) (c : sclass) : Prop :=
  exists a v, PN_VTABLE w t = Ok a /\ hget w a = Some (OVt v) /\ v_type v = t /\
    v_parent v = opt0 (sc_parent c) /\
    match sc_meta c with None => v_meta v = PN_NIL | Some m => PN_VTABLE w m = Ok (v_meta v) end /\
    denotes uniq (v_methods v) (fun k => find_key k (sc_methods c)) /\ n_occupied (v_methods v) <= n /\
    (forall k m, find_key k (sc_methods c) = Some m -> exists cl, hget w m = Some (OCl cl)) /\
    fields_rep v (sc_fields c).
Record rep (n : Z) (w : world) (S : sstate) : Prop := {
  rep_class : forall t c, sget S t = Some c -> class_rep n w t c;
  rep_next : PN_TNIL + zlen (w_vts w) = s_next S;
  rep_range : forall t c, sget S t = Some c -> PN_TNIL <= t < s_next S;
  rep_meta : forall t c m, sget S t = Some c -> sc_meta c = Some m -> exists cm, sget S m = Some cm /\ sc_meta cm = None;
  rep_mparent : forall t c, sget S t = Some c -> sc_meta c = None -> sc_parent c = Some PN_TVTABLE;
  rep_parent0 : forall t c p, sget S t = Some c -> sc_parent c = Some p -> exists cp, sget S p = Some cp;
  rep_size : Z.of_nat (length (w_heap w)) <= 1000 + 10 * n;
  rep_steps : 0 <= n <= limit;
  rep_lobby : PN_VTABLE w PN_TLOBBY = Ok (w_lobby w) /\ exists c, sget S PN_TLOBBY = Some c;
  rep_obj : forall a t f, hget w a = Some (OObj t f) -> exists c, sget S t = Some c /\
      PN_TNIL <= t /\ t <> PN_TVTABLE /\ t <> PN_TCLOSURE /\ t <> PN_TPROTO /\
      zlen f = match sc_fields c with Some l => zlen l | None => 0 end;
  rep_look : exists f cl c, sget S PN_TVTABLE = Some c /\ find_key PN_lookup (sc_methods c) = Some f /\
      hget w f = Some (OCl cl) /\ c_fn cl = F_lookup;
  rep_nolook : forall t c, sget S t = Some c -> t <> PN_TVTABLE -> find_key PN_lookup (sc_methods c) = None }.

(** the class hierarchy has no cycles *)
Definition grounded (S : sstate) : Prop := forall t c k, sget S t = Some c -> exists r, nearest S t k r.

Lemma rd_Ok l i x : rd l i = Ok x -> 0 <= i < zlen l /\ znth l i = x.
Proof. unfold rd. destruct (inb l i) eqn:E; [|discriminate]. apply inb_true in E. intros H. injection H as <-. auto. Qed.

(** what may happen to an object other than the class being changed *)
Definition kept (o o' : obj) : Prop :=
  match o with
  | OCl c => exists c', o' = OCl c' /\ c_fn c' = c_fn c /\ c_sig c' = c_sig c /\ c_data c' = c_data c
  | OProto s _ => exists nm, o' = OProto s nm
  | _ => o' = o
  end.
Lemma kept_refl o : kept o o.
Proof. destruct o; cbn; eauto. Qed.
Lemma kept_trans o o1 o2 : kept o o1 -> kept o1 o2 -> kept o o2.
Proof.
  destruct o as [v|c|s nm|t f|t]; cbn; try (intros ->; auto; fail).
  - intros (c' & -> & A & B & C). cbn. intros (c2 & -> & A2 & B2 & C2). exists c2. split; [reflexivity|]. split; [congruence|]. split; congruence.
  - intros (nm' & ->). cbn. auto.
Qed.
Lemma kept_cl c o' : kept (OCl c) o' -> exists c', o' = OCl c' /\ c_fn c' = c_fn c.
Proof. cbn. intros (c' & E & F & _). eauto. Qed.

Lemma class_rep_keep n n' w w' t c : class_rep n w t c -> n <= n' ->
  (forall x y, PN_VTABLE w x = Ok y -> PN_VTABLE w' x = Ok y) ->
  (forall x o, hget w x = Some o -> PN_VTABLE w t = Ok x \/ (forall v, o <> OVt v) -> exists o', hget w' x = Some o' /\ kept o o') ->
  class_rep n' w' t c.
Proof.
  intros (a & v & A & H & T & P & M & D & O & C & F) Hn V K. exists a, v.
  destruct (K a _ H (or_introl A)) as (o' & H' & KO). cbn in KO. subst o'.
  split; [auto|]. split; [exact H'|]. split; [exact T|]. split; [exact P|].
  split; [destruct (sc_meta c); auto|]. split; [exact D|]. split; [lia|]. split; [|exact F].
  intros k m E. destruct (C k m E) as (cl & HC).
  destruct (K m _ HC) as (o' & H2 & KO); [right; discriminate|]. apply kept_cl in KO. destruct KO as (c' & -> & _). eauto.
Qed.

Lemma class_addr_ne n w S t t' c c' a : rep n w S -> sget S t = Some c -> sget S t' = Some c' ->
  PN_VTABLE w t = Ok a -> PN_VTABLE w t' = Ok a -> t = t'.
Proof.
  intros R E E' A A'. destruct (rep_class _ _ _ R t c E) as (b & v & B & H & T & _).
  destruct (rep_class _ _ _ R t' c' E') as (b' & v' & B' & H' & T' & _). congruence.
Qed.

(** ** One definition *)
Lemma rep_def_step n w w' S t c a v v' m' key m : rep n w S -> n < limit -> sget S t = Some c -> key <> PN_lookup ->
  PN_VTABLE w t = Ok a -> hget w a = Some (OVt v) ->
  hget w' a = Some (OVt v') -> v' = mkVt (v_parent v) (v_type v) (v_name v) (v_ivlen v) (v_ivars v) m' (v_meta v) (v_ctor v) (v_ivfunc v) ->
  denotes uniq m' (upd_map (fun k => find_key k (sc_methods c)) key m) -> n_occupied m' <= n + 1 ->
  (exists cl, hget w' m = Some (OCl cl)) ->
  w_vts w' = w_vts w -> w_lobby w' = w_lobby w -> Z.of_nat (length (w_heap w')) <= Z.of_nat (length (w_heap w)) + 10 ->
  (forall x o, hget w x = Some o -> x <> a -> exists o', hget w' x = Some o' /\ kept o o') ->
  (forall x ty f, hget w' x = Some (OObj ty f) -> hget w x = Some (OObj ty f)) ->
  rep (n + 1) w' (spec_def S t key m).
Proof.
  intros R Hn Hc Hk A Hv Hv' Ev D O M V L SZ K OB.
  assert (PV : forall x y, PN_VTABLE w x = Ok y -> PN_VTABLE w' x = Ok y) by (intros x y; unfold PN_VTABLE; rewrite V; auto).
  assert (KC : forall x cl, hget w x = Some (OCl cl) -> exists cl', hget w' x = Some (OCl cl') /\ c_fn cl' = c_fn cl).
  { intros x cl H. destruct (K x _ H) as (o' & H' & KO); [intros ->; congruence|].
    apply kept_cl in KO. destruct KO as (c' & -> & F). eauto. }
  assert (SG : forall t1 c1, sget (spec_def S t key m) t1 = Some c1 ->
     exists c0, sget S t1 = Some c0 /\ sc_parent c1 = sc_parent c0 /\ sc_meta c1 = sc_meta c0 /\ sc_fields c1 = sc_fields c0 /\
       ((t1 <> t /\ c1 = c0) \/ (t1 = t /\ c0 = c /\ sc_methods c1 = (key, m) :: drop_key key (sc_methods c)))).
  { intros t1 c1 E. unfold spec_def in E. rewrite sget_upd in E. destruct (sget S t1) as [c0|] eqn:E0; [|discriminate].
    injection E as <-. exists c0. split; [reflexivity|]. destruct (Z.eqb_spec t1 t) as [->|N]; cbn.
    - repeat (split; [reflexivity|]). right. split; [reflexivity|]. split; congruence.
    - repeat (split; [reflexivity|]). left. auto. }
  assert (SG' : forall t1 c0, sget S t1 = Some c0 -> exists c1, sget (spec_def S t key m) t1 = Some c1 /\ sc_meta c1 = sc_meta c0).
  { intros t1 c0 E. unfold spec_def. rewrite sget_upd, E. eexists. split; [reflexivity|]. destruct (t1 =? t); reflexivity. }
  split.
  - intros t1 c1 E. destruct (SG t1 c1 E) as (c0 & E0 & P1 & M1 & F1 & [[N1 ->]|(-> & -> & MM)]).
    + apply (class_rep_keep n _ w); [apply (rep_class _ _ _ R), E0|lia|exact PV|].
      intros x o H HH. apply (K x o H). intros ->. destruct HH as [HH|HH].
      * apply N1. apply (class_addr_ne n w S t1 t c0 c a R E0 Hc HH A).
      * apply (HH v). congruence.
    + destruct (rep_class _ _ _ R t c Hc) as (a2 & v2 & A2 & H2 & T2 & P2 & M2 & D2 & O2 & C2 & F2).
      assert (a2 = a) by congruence. subst a2. assert (v2 = v) by congruence. subst v2.
      exists a, v'. split; [auto|]. split; [exact Hv'|]. rewrite Ev. cbn [v_type v_parent v_meta v_methods].
      split; [exact T2|]. rewrite P1, M1. split; [exact P2|].
      split; [destruct (sc_meta c); auto|]. split; [|split; [exact O|split]].
      * eapply den_ext; [exact D|]. intros k. rewrite MM. unfold upd_map. cbn [find_key fst snd].
        rewrite find_drop_key, (Z.eqb_sym key k). destruct (k =? key); reflexivity.
      * intros k m1. rewrite MM. cbn [find_key fst snd]. rewrite find_drop_key, (Z.eqb_sym key k). destruct (k =? key).
        -- intros X. injection X as <-. exact M.
        -- intros X. destruct (C2 k m1 X) as (cl & HC). destruct (KC _ _ HC) as (cl' & HC' & _). eauto.
      * rewrite F1. unfold fields_rep in *. cbn [v_ivars v_ivlen v_ivfunc]. exact F2.
  - rewrite V. apply (rep_next _ _ _ R).
  - intros t1 c1 E. destruct (SG t1 c1 E) as (c0 & E0 & _). apply (rep_range _ _ _ R t1 c0 E0).
  - intros t1 c1 m1 E E1. destruct (SG t1 c1 E) as (c0 & E0 & _ & M1 & _).
    destruct (rep_meta _ _ _ R t1 c0 m1 E0) as (cm & Ecm & X); [congruence|].
    destruct (SG' m1 cm Ecm) as (c2 & E2 & X2). exists c2. split; [exact E2|congruence].
  - intros t1 c1 E E1. destruct (SG t1 c1 E) as (c0 & E0 & P0 & M1 & _). rewrite P0.
    apply (rep_mparent _ _ _ R t1 c0 E0). congruence.
  - intros t1 c1 p E E1. destruct (SG t1 c1 E) as (c0 & E0 & P0 & _).
    destruct (rep_parent0 _ _ _ R t1 c0 p E0) as (cp & X); [congruence|]. destruct (SG' p cp X) as (c2 & X2 & _). eauto.
  - pose proof (rep_size _ _ _ R). lia.
  - pose proof (rep_steps _ _ _ R). lia.
  - rewrite L. destruct (rep_lobby _ _ _ R) as (LB & c0 & Ec0). split; [apply PV, LB|]. destruct (SG' _ _ Ec0) as (c1 & E1 & _). eauto.
  - intros x ty f H. apply OB in H. destruct (rep_obj _ _ _ R x ty f H) as (c0 & E0 & X).
    unfold spec_def. rewrite sget_upd, E0. eexists. split; [reflexivity|]. destruct (ty =? t); exact X.
  - destruct (rep_look _ _ _ R) as (f & cl & c0 & E0 & X & H & F). destruct (KC _ _ H) as (cl' & H' & F').
    unfold spec_def. rewrite sget_upd, E0. exists f, cl'. eexists. split; [reflexivity|]. split; [|split; [exact H'|congruence]].
    destruct (PN_TVTABLE =? t); [|exact X]. cbn [sc_methods find_key fst snd].
    destruct (Z.eqb_spec key PN_lookup); [contradiction|]. rewrite find_drop_key.
    destruct (Z.eqb_spec PN_lookup key); [congruence|exact X].
  - intros t1 c1 E N1. destruct (SG t1 c1 E) as (c0 & E0 & _ & _ & _ & [[N2 ->]|(-> & -> & MM)]).
    + apply (rep_nolook _ _ _ R t1 c0 E0 N1).
    + rewrite MM. cbn [find_key fst snd]. destruct (Z.eqb_spec key PN_lookup); [contradiction|]. rewrite find_drop_key.
      destruct (Z.eqb_spec PN_lookup key); [congruence|]. apply (rep_nolook _ _ _ R t c Hc N1).
Qed.

(** the value given to "def": an immediate, or a pointer to an existing object *)
Definition value_ok (w : world) (v : Z) : Prop := PN_IS_PTR v = true -> exists o, hget w v = Some o /\ (otype o = PN_TCLOSURE -> exists c, o = OCl c) /\ (otype o = PN_TPROTO -> exists s nm, o = OProto s nm).

Lemma isc_spec w v : value_ok w v ->
  (exists c, hget w v = Some (OCl c) /\ ptr_type_is w v PN_TCLOSURE = Ok true) \/
  ((forall c, PN_IS_PTR v = true -> hget w v <> Some (OCl c)) /\ ptr_type_is w v PN_TCLOSURE = Ok false).
Proof.
  intros VO. unfold ptr_type_is. destruct (PN_IS_PTR v) eqn:E; [|right; split; [discriminate|reflexivity]].
  destruct (VO E) as (o & H & C & _). rewrite H. destruct (otype o =? PN_TCLOSURE) eqn:T.
  - apply Z.eqb_eq in T. destruct (C T) as (c & ->). left. eauto.
  - right. split; [|reflexivity]. intros c _ X. injection X as ->. cbn in T. rewrite Z.eqb_refl in T. discriminate.
Qed.

Lemma def_method_ok n w S t c a key val : rep n w S -> n < limit -> sget S t = Some c -> key <> PN_lookup ->
  PN_VTABLE w t = Ok a -> value_ok w val ->
  exists w' m, def_method uniq junk w a key val = Ok (w', Some m) /\ rep (n + 1) w' (spec_def S t key m) /\
    w_vts w' = w_vts w /\
    (forall x o, hget w x = Some o -> x <> a -> exists o', hget w' x = Some o' /\ kept o o') /\
    ((exists cl, hget w val = Some (OCl cl) /\ m = val) \/
     ((forall cl, PN_IS_PTR val = true -> hget w val <> Some (OCl cl)) /\ hget w m = None /\
      exists sg fn, hget w' m = Some (OCl (mkCl fn sg [val] key)) /\
       ((fn = F_getter /\ sg = PN_NIL /\ (forall s nm, PN_IS_PTR val = true -> hget w val <> Some (OProto s nm))) \/
        (exists nm, fn = F_proto /\ hget w val = Some (OProto sg nm))))).
Proof.
  intros R Hn Hc Hk A VO.
  destruct (rep_class _ _ _ R t c Hc) as (a2 & v & A2 & Hv & T & P & M & D & O & C & F).
  assert (a2 = a) by congruence. subst a2.
  assert (PUT : forall x, exists t1 k r t2, kh_put Z.eqb (pn_hash uniq) junk (v_methods v) key = Ok (t1, k, r) /\
     kh_set_val t1 k x = Ok t2 /\ denotes uniq t2 (upd_map (fun k => find_key k (sc_methods c)) key x) /\ n_occupied t2 <= n + 1).
  { intros x. destruct (put_den uniq junk (v_methods v) _ key x D) as (t2 & E2 & D2 & O2); [lia|].
    unfold table_put in E2. destruct (kh_put Z.eqb (pn_hash uniq) junk (v_methods v) key) as [[[t1 k] r]| |]; try discriminate.
    exists t1, k, r, t2. cbn [bind] in E2. split; [reflexivity|]. split; [exact E2|]. split; [exact D2|lia]. }
  destruct (PUT 0) as (t1 & k & r & _ & EP & _). 
  unfold def_method. rewrite (hget_type _ _ _ Hv). cbn [bind otype]. rewrite Z.eqb_refl. cbn [negb].
  rewrite (get_vt_ok _ _ _ Hv). cbn [bind]. rewrite EP. cbn [bind]. unfold set_methods at 1. rewrite (get_vt_ok _ _ _ Hv). cbn [bind].
  set (v1 := mkVt (v_parent v) (v_type v) (v_name v) (v_ivlen v) (v_ivars v) t1 (v_meta v) (v_ctor v) (v_ivfunc v)).
  set (w1 := hset w a (OVt v1)).
  assert (G1 : hget w1 a = Some (OVt v1)) by apply (hget_hset_same _ _ _ _ Hv).
  assert (G1' : forall x, x <> a -> hget w1 x = hget w x) by (intros x N; apply (hget_hset_other _ _ _ _ _ Hv); congruence).
  assert (L1 : length (w_heap w1) = length (w_heap w)) by apply (hset_len _ _ _ _ Hv).
  assert (VO1 : value_ok w1 val).
  { intros E. destruct (Z.eq_dec val a) as [->|N].
    - rewrite G1. eexists. split; [reflexivity|]. cbn. split; intros X; discriminate X.
    - rewrite (G1' _ N). apply VO, E. }
  (* the common end: store the method in the table of [a] *)
  assert (FIN : forall w2 m, hget w2 a = Some (OVt v1) -> (exists cl, hget w2 m = Some (OCl cl)) -> m <> a ->
     w_vts w2 = w_vts w -> w_lobby w2 = w_lobby w -> Z.of_nat (length (w_heap w2)) <= Z.of_nat (length (w_heap w)) + 10 ->
     (forall x o, hget w x = Some o -> x <> a -> exists o', hget w2 x = Some o' /\ kept o o') ->
     (forall x ty f, hget w2 x = Some (OObj ty f) -> hget w x = Some (OObj ty f)) ->
     exists w3, (do v0 <- get_vt w2 a; do m0 <- kh_set_val (v_methods v0) k m; do w0 <- set_methods w2 a m0; Ok (w0, Some m)) = Ok (w3, Some m) /\
       rep (n + 1) w3 (spec_def S t key m) /\ w_vts w3 = w_vts w /\
       (forall x o, hget w x = Some o -> x <> a -> exists o', hget w3 x = Some o' /\ kept o o') /\
       hget w3 m = hget w2 m).
  { intros w2 m H2 HM NM V2 LB SZ K OB. rewrite (get_vt_ok _ _ _ H2). cbn [bind]. change (v_methods v1) with t1.
    destruct (PUT m) as (t1' & k' & r' & t2 & EP' & ES & DS & OS). rewrite EP in EP'. injection EP' as <- <- <-.
    rewrite ES. cbn [bind]. unfold set_methods. rewrite (get_vt_ok _ _ _ H2). cbn [bind].
    set (v2 := mkVt (v_parent v1) (v_type v1) (v_name v1) (v_ivlen v1) (v_ivars v1) t2 (v_meta v1) (v_ctor v1) (v_ivfunc v1)).
    exists (hset w2 a (OVt v2)). split; [reflexivity|].
    assert (G3 : forall x, x <> a -> hget (hset w2 a (OVt v2)) x = hget w2 x) by (intros x N; apply (hget_hset_other _ _ _ _ _ H2); congruence).
    split; [|split; [rewrite hset_vts; exact V2|split]].
    - apply (rep_def_step n w _ S t c a v v2 t2 key m R Hn Hc Hk A Hv).
      + apply (hget_hset_same _ _ _ _ H2).
      + reflexivity.
      + exact DS.
      + exact OS.
      + rewrite G3 by exact NM. exact HM.
      + rewrite hset_vts. exact V2.
      + rewrite hset_lobby. exact LB.
      + rewrite (hset_len _ _ _ _ H2). exact SZ.
      + intros x o Hx N. rewrite G3 by exact N. apply K; assumption.
      + intros x ty f. destruct (Z.eq_dec x a) as [->|N].
        * rewrite (hget_hset_same _ _ _ _ H2). discriminate.
        * rewrite G3 by exact N. apply OB.
    - intros x o Hx N. rewrite G3 by exact N. apply K; assumption.
    - apply G3, NM. }
  destruct (isc_spec w1 val VO1) as [(cl & HC & E)|(NC & E)]; rewrite E; cbn [bind negb].
  - (* a closure *)
    assert (NV : val <> a) by (intros ->; congruence).
    unfold set_clname. rewrite HC. cbn [bind].
    set (cl' := mkCl (c_fn cl) (c_sig cl) (c_data cl) key).
    destruct (FIN (hset w1 val (OCl cl')) val) as (w3 & E3 & R3 & V3 & K3 & G3).
    + rewrite (hget_hset_other _ _ _ _ _ HC) by congruence. exact G1.
    + rewrite (hget_hset_same _ _ _ _ HC). eauto.
    + exact NV.
    + rewrite hset_vts. apply hset_vts.
    + rewrite hset_lobby. apply hset_lobby.
    + rewrite (hset_len _ _ _ _ HC). lia.
    + intros x o Hx N. destruct (Z.eq_dec val x) as [->|N2].
      * rewrite (hget_hset_same _ _ _ _ HC). eexists. split; [reflexivity|]. rewrite (G1' _ N) in HC.
        rewrite Hx in HC. injection HC as ->. cbn. exists cl'. cbn. auto.
      * rewrite (hget_hset_other _ _ _ _ _ HC) by exact N2. rewrite G1' by exact N. exists o. split; [exact Hx|apply kept_refl].
    + intros x ty f. destruct (Z.eq_dec val x) as [->|N2].
      * rewrite (hget_hset_same _ _ _ _ HC). discriminate.
      * rewrite (hget_hset_other _ _ _ _ _ HC) by exact N2. destruct (Z.eq_dec x a) as [->|N3]; [rewrite G1; discriminate|].
        rewrite G1' by exact N3. auto.
    + exists w3, val. split; [exact E3|]. split; [exact R3|]. split; [exact V3|]. split; [exact K3|]. left. exists cl. split; [|reflexivity].
      rewrite <- (G1' _ NV). exact HC.
  - (* another value *)
    set (fresh := addr (length (w_heap w1))).
    assert (FN : forall l, hget (mkW (w_heap w1 ++ l) (w_vts w1) (w_lobby w1)) fresh = nth_error l 0).
    { intros l. unfold fresh. rewrite hget_addr. cbn [w_heap]. rewrite nth_error_app2 by lia. rewrite Nat.sub_diag. reflexivity. }
    assert (FO : hget w1 fresh = None) by (unfold fresh; rewrite hget_addr; apply nth_error_None; lia).
    assert (FA : fresh <> a) by congruence.
    assert (FW : hget w fresh = None) by (rewrite <- (G1' _ FA); exact FO).
    assert (WR : forall x, wr (repeat PN_NIL 1) 0 x = Ok [x]) by reflexivity.
    assert (PR : (exists sg nm, hget w1 val = Some (OProto sg nm) /\ ptr_type_is w1 val PN_TPROTO = Ok true) \/
       ((forall s nm, PN_IS_PTR val = true -> hget w1 val <> Some (OProto s nm)) /\ ptr_type_is w1 val PN_TPROTO = Ok false)).
    { unfold ptr_type_is. destruct (PN_IS_PTR val) eqn:EP1; [|right; split; [discriminate|reflexivity]].
      destruct (VO1 EP1) as (o & H & _ & X). rewrite H. destruct (otype o =? PN_TPROTO) eqn:TT.
      - apply Z.eqb_eq in TT. destruct (X TT) as (sg & nm & ->). left. eauto.
      - right. split; [|reflexivity]. intros sg nm _ Y. injection Y as ->. cbn in TT. rewrite Z.eqb_refl in TT. discriminate. }
    assert (NC' : forall cl, PN_IS_PTR val = true -> hget w val <> Some (OCl cl)).
    { intros cl EP1 X. destruct (Z.eq_dec val a) as [->|NV]; [congruence|]. apply (NC cl EP1). rewrite (G1' _ NV). exact X. }
    destruct PR as [(sg & nm & HP & EPR)|(NP & EPR)]; rewrite EPR; cbn [bind].
    + assert (NV : val <> a) by (intros ->; congruence).
      assert (NF : val <> fresh) by congruence.
      rewrite HP. unfold closure_new, alloc. fold fresh. cbn [bind].
      set (w2 := mkW (w_heap w1 ++ [OCl (mkCl F_proto sg (repeat PN_NIL 1) PN_NIL)]) (w_vts w1) (w_lobby w1)).
      assert (H2P : hget w2 val = Some (OProto sg nm)) by (apply (hget_app w1), HP).
      assert (HF : hget (hset w2 val (OProto sg key)) fresh = Some (OCl (mkCl F_proto sg (repeat PN_NIL 1) PN_NIL))).
      { rewrite (hget_hset_other _ _ _ _ _ H2P) by exact NF. apply FN. }
      rewrite HF. cbn [c_data c_fn c_sig]. rewrite WR. cbn [bind].
      set (wf := hset (hset w2 val (OProto sg key)) fresh (OCl (mkCl F_proto sg [val] key))).
      assert (GF : hget wf fresh = Some (OCl (mkCl F_proto sg [val] key))) by apply (hget_hset_same _ _ _ _ HF).
      assert (GO : forall x, x <> fresh -> x <> val -> hget wf x = hget w2 x).
      { intros x N1 N2. unfold wf. rewrite (hget_hset_other _ _ _ _ _ HF) by congruence. apply (hget_hset_other _ _ _ _ _ H2P). congruence. }
      assert (GV : hget wf val = Some (OProto sg key)).
      { unfold wf. rewrite (hget_hset_other _ _ _ _ _ HF) by congruence. apply (hget_hset_same _ _ _ _ H2P). }
      assert (W2 : forall x o, hget w1 x = Some o -> hget w2 x = Some o) by (intros x o HH; apply (hget_app w1), HH).
      assert (W2' : forall x, x <> fresh -> hget w2 x = hget w1 x).
      { intros x N1. destruct (hget w1 x) as [o|] eqn:E1; [apply W2, E1|]. unfold hget in *. destruct (slot x) as [j|] eqn:SX; [|reflexivity].
        apply slot_Some in SX. subst x. apply nth_error_None in E1. cbn [w2 w_heap]. rewrite nth_error_app2 by lia.
        destruct (j - length (w_heap w1))%nat as [|j'] eqn:J; [|destruct j'; reflexivity].
        exfalso. apply N1. unfold fresh. f_equal. lia. }
      destruct (FIN wf fresh) as (w3 & E3 & R3 & V3 & K3 & G3).
      * rewrite GO by congruence. apply W2, G1.
      * rewrite GF. eauto.
      * exact FA.
      * unfold wf. rewrite !hset_vts. cbn [w2 w_vts]. apply hset_vts.
      * unfold wf. rewrite !hset_lobby. cbn [w2 w_lobby]. apply hset_lobby.
      * unfold wf. rewrite (hset_len _ _ _ _ HF), (hset_len _ _ _ _ H2P). cbn [w2 w_heap]. rewrite app_length. cbn [length]. lia.
      * intros x o Hx N. destruct (Z.eq_dec x val) as [->|N2].
        -- rewrite GV. eexists. split; [reflexivity|]. rewrite (G1' _ NV), Hx in HP. injection HP as ->. cbn. eauto.
        -- assert (N3 : x <> fresh) by congruence. rewrite (GO _ N3 N2). rewrite W2' by exact N3. rewrite G1' by exact N.
           exists o. split; [exact Hx|apply kept_refl].
      * intros x ty f Hx. destruct (Z.eq_dec x fresh) as [->|N3]; [congruence|].
        destruct (Z.eq_dec x val) as [->|N4]; [congruence|]. rewrite GO, W2' in Hx by assumption.
        destruct (Z.eq_dec x a) as [->|N5]; [congruence|]. rewrite G1' in Hx by exact N5. exact Hx.
      * exists w3, fresh. split; [exact E3|]. split; [exact R3|]. split; [exact V3|]. split; [exact K3|]. right.
        split; [exact NC'|]. split; [exact FW|]. exists sg, F_proto. split; [rewrite G3; exact GF|]. right. exists nm.
        split; [reflexivity|]. rewrite <- (G1' _ NV). exact HP.
    + unfold closure_new, alloc. fold fresh. cbn [bind].
      set (w2 := mkW (w_heap w1 ++ [OCl (mkCl F_getter PN_NIL (repeat PN_NIL 1) PN_NIL)]) (w_vts w1) (w_lobby w1)).
      assert (HF : hget w2 fresh = Some (OCl (mkCl F_getter PN_NIL (repeat PN_NIL 1) PN_NIL))) by apply FN.
      rewrite HF. cbn [c_data c_fn c_sig]. rewrite WR. cbn [bind].
      set (wf := hset w2 fresh (OCl (mkCl F_getter PN_NIL [val] key))).
      assert (GF : hget wf fresh = Some (OCl (mkCl F_getter PN_NIL [val] key))) by apply (hget_hset_same _ _ _ _ HF).
      assert (GO : forall x, x <> fresh -> hget wf x = hget w2 x).
      { intros x N1. unfold wf. apply (hget_hset_other _ _ _ _ _ HF). congruence. }
      assert (W2 : forall x o, hget w1 x = Some o -> hget w2 x = Some o) by (intros x o HH; apply (hget_app w1), HH).
      assert (W2' : forall x, x <> fresh -> hget w2 x = hget w1 x).
      { intros x N1. destruct (hget w1 x) as [o|] eqn:E1; [apply W2, E1|]. unfold hget in *. destruct (slot x) as [j|] eqn:SX; [|reflexivity].
        apply slot_Some in SX. subst x. apply nth_error_None in E1. cbn [w2 w_heap]. rewrite nth_error_app2 by lia.
        destruct (j - length (w_heap w1))%nat as [|j'] eqn:J; [|destruct j'; reflexivity].
        exfalso. apply N1. unfold fresh. f_equal. lia. }
      destruct (FIN wf fresh) as (w3 & E3 & R3 & V3 & K3 & G3).
      * rewrite GO by congruence. apply W2, G1.
      * rewrite GF. eauto.
      * exact FA.
      * unfold wf. rewrite !hset_vts. cbn [w2 w_vts]. apply hset_vts.
      * unfold wf. rewrite !hset_lobby. cbn [w2 w_lobby]. apply hset_lobby.
      * unfold wf. rewrite (hset_len _ _ _ _ HF). cbn [w2 w_heap]. rewrite app_length. cbn [length]. lia.
      * intros x o Hx N. assert (N3 : x <> fresh) by congruence. rewrite (GO _ N3). rewrite W2' by exact N3. rewrite G1' by exact N.
        exists o. split; [exact Hx|apply kept_refl].
      * intros x ty f Hx. destruct (Z.eq_dec x fresh) as [->|N3]; [congruence|]. rewrite GO, W2' in Hx by assumption.
        destruct (Z.eq_dec x a) as [->|N5]; [congruence|]. rewrite G1' in Hx by exact N5. exact Hx.
      * exists w3, fresh. split; [exact E3|]. split; [exact R3|]. split; [exact V3|]. split; [exact K3|]. right.
        split; [exact NC'|]. split; [exact FW|]. exists PN_NIL, F_getter. split; [rewrite G3; exact GF|]. left.
        split; [reflexivity|]. split; [reflexivity|]. intros s nm EP1 X.
        destruct (Z.eq_dec val a) as [->|NV]; [congruence|]. apply (NP s nm EP1). rewrite (G1' _ NV). exact X.
Qed.

(** ** Dispatch *)
Lemma lookup_ok n w S t c a k : rep n w S -> sget S t = Some c -> PN_VTABLE w t = Ok a ->
  lookup uniq w a k = Ok (opt0 (find_key k (sc_methods c))).
Proof.
  intros R Hc A. destruct (rep_class _ _ _ R t c Hc) as (a2 & v & A2 & Hv & T & P & M & D & _).
  assert (a2 = a) by congruence. subst a2. unfold lookup. rewrite (get_vt_ok _ _ _ Hv). cbn [bind].
  rewrite (at_den uniq _ _ k D). reflexivity.
Qed.
Lemma method_pos n w S t c k m : rep n w S -> sget S t = Some c -> find_key k (sc_methods c) = Some m -> 65536 <= m.
Proof.
  intros R Hc E. destruct (rep_class _ _ _ R t c Hc) as (a & v & _ & _ & _ & _ & _ & _ & _ & C & _).
  destruct (C k m E) as (cl & H). apply (rep_a_pos _ _ _ H).
Qed.
Lemma bind_loop_ok n w S k look : rep n w S ->
  (forall t c a, sget S t = Some c -> PN_VTABLE w t = Ok a -> look a = Ok (opt0 (find_key k (sc_methods c)))) ->
  forall t k' r, nearest S t k' r -> k' = k -> forall a, PN_VTABLE w t = Ok a ->
  exists N, forall fuel, (N <= fuel)%nat -> bind_loop fuel look w a = Ok (opt0 r).
Proof.
  intros R HL t k' r H. induction H as [t k' c m E F|t k' c p r E F P N IH|t k' c E F P]; intros -> a A.
  - exists 1%nat. intros [|f] Hf; [lia|]. cbn [bind_loop]. rewrite (HL t c a E A), F. cbn [bind opt0].
    destruct (rep_class _ _ _ R t c E) as (a2 & v & A2 & Hv & _). assert (a2 = a) by congruence. subst a2.
    rewrite (get_vt_ok _ _ _ Hv). cbn [bind]. pose proof (method_pos _ _ _ _ _ _ _ R E F).
    unfold PN_NIL. destruct (Z.eqb_spec m 0); [lia|]. reflexivity.
  - destruct (rep_class _ _ _ R t c E) as (a2 & v & A2 & Hv & _ & PV & _). assert (a2 = a) by congruence. subst a2.
    rewrite P in PV. cbn [opt0] in PV. destruct (rep_parent0 _ _ _ R t c p E P) as (cp & Ep).
    destruct (rep_class _ _ _ R p cp Ep) as (ap & vp & AP & _).
    destruct (IH eq_refl ap AP) as (N0 & H0). exists (1 + N0)%nat. intros [|f] Hf; [lia|]. cbn [bind_loop].
    rewrite (HL t c a E A), F. cbn [bind opt0]. rewrite (get_vt_ok _ _ _ Hv). cbn [bind]. rewrite PV.
    pose proof (rep_range _ _ _ R p cp Ep) as RG. unfold PN_TNIL in RG.
    change (0 =? PN_NIL) with true. cbn [negb orb]. destruct (Z.eqb_spec p 0); [lia|].
    rewrite AP. cbn [bind]. apply H0. lia.
  - exists 1%nat. intros [|f] Hf; [lia|]. cbn [bind_loop]. rewrite (HL t c a E A), F. cbn [bind opt0].
    destruct (rep_class _ _ _ R t c E) as (a2 & v & A2 & Hv & _ & PV & _). assert (a2 = a) by congruence. subst a2.
    rewrite (get_vt_ok _ _ _ Hv). cbn [bind]. rewrite PV, P. cbn [opt0]. reflexivity.
Qed.
Lemma typecheck_ok n w S t c : rep n w S -> sget S t = Some c -> PN_TYPECHECK w t = true.
Proof.
  intros R E. pose proof (rep_range _ _ _ R t c E). pose proof (rep_next _ _ _ R). unfold PN_TYPECHECK. lia.
Qed.
(** the class whose methods a receiver answers with *)
Inductive rcv_class (w : world) (S : sstate) : Z -> Z -> Prop :=
| rcv_instance v t : PN_TYPE w v = Ok t -> t <> PN_TVTABLE -> rcv_class w S v t
| rcv_class_obj v t c m : PN_VTABLE w t = Ok v -> sget S t = Some c -> sc_meta c = Some m -> rcv_class w S v m
| rcv_metaclass v t c : PN_VTABLE w t = Ok v -> sget S t = Some c -> sc_meta c = None -> rcv_class w S v PN_TVTABLE.
Lemma class_vt n w S t c a : rep n w S -> sget S t = Some c -> PN_VTABLE w t = Ok a ->
  exists v, hget w a = Some (OVt v) /\ v_parent v = opt0 (sc_parent c) /\
   match sc_meta c with None => v_meta v = PN_NIL | Some m => PN_VTABLE w m = Ok (v_meta v) end.
Proof.
  intros R E A. destruct (rep_class _ _ _ R t c E) as (a2 & v & A2 & Hv & T & P & M & _).
  assert (a2 = a) by congruence. subst a2. eauto.
Qed.
Lemma meta_pos n w S t c m a : rep n w S -> sget S t = Some c -> sc_meta c = Some m -> PN_VTABLE w m = Ok a -> (a =? PN_NIL) = false.
Proof.
  intros R E M A. destruct (rep_meta _ _ _ R t c m E M) as (cm & Em & _).
  destruct (class_vt _ _ _ _ _ _ R Em A) as (v & H & _). apply rep_a_pos in H. unfold PN_NIL. lia.
Qed.
Lemma bind_start_ok n w S v t c : rep n w S -> rcv_class w S v t -> sget S t = Some c ->
  exists ty start, PN_TYPE w v = Ok ty /\ PN_TYPECHECK w ty = true /\ bind_start w v ty = Ok start /\ PN_VTABLE w t = Ok start.
Proof.
  intros R H Hc. inversion H as [v0 t0 T N|v0 t0 c0 m A E M|v0 t0 c0 A E M]; subst.
  - destruct (rep_class _ _ _ R t c Hc) as (a & _ & A & _). exists t, a. split; [exact T|].
    split; [apply (typecheck_ok _ _ _ _ _ R Hc)|]. split; [|exact A]. unfold bind_start. destruct (Z.eqb_spec t PN_TVTABLE); [contradiction|exact A].
  - destruct (class_vt _ _ _ _ _ _ R E A) as (vt & Hv & _ & MM). rewrite M in MM.
    exists PN_TVTABLE, (v_meta vt). split; [apply (hget_type _ _ _ Hv)|].
    destruct (rep_look _ _ _ R) as (_ & _ & cv & Ev & _). split; [apply (typecheck_ok _ _ _ _ _ R Ev)|]. split; [|exact MM].
    unfold bind_start. rewrite Z.eqb_refl, (get_vt_ok _ _ _ Hv). cbn [bind]. unfold IS_METACLASS.
    rewrite (meta_pos _ _ _ _ _ _ _ R E M MM). reflexivity.
  - destruct (class_vt _ _ _ _ _ _ R E A) as (vt & Hv & _ & MM). rewrite M in MM.
    destruct (rep_class _ _ _ R _ _ Hc) as (a & _ & A2 & _). exists PN_TVTABLE, a. split; [apply (hget_type _ _ _ Hv)|].
    split; [apply (typecheck_ok _ _ _ _ _ R Hc)|]. split; [|exact A2].
    unfold bind_start. rewrite Z.eqb_refl, (get_vt_ok _ _ _ Hv). cbn [bind]. unfold IS_METACLASS. rewrite MM. cbn [negb]. exact A2.
Qed.
Lemma addr_of_cl n w S a c : rep n w S -> hget w a = Some (OCl c) -> ptr_type_is w a PN_TCLOSURE = Ok true.
Proof.
  intros R H. unfold ptr_type_is. destruct (hget_Some _ _ _ H) as (j & -> & E & L). rewrite addr_ptr.
  2:{ pose proof (rep_size _ _ _ R). pose proof (rep_steps _ _ _ R). unfold limit in *. lia. }
  rewrite H. reflexivity.
Qed.
Lemma send_lookup_ok n w S t c a k fuel : rep n w S -> sget S t = Some c -> PN_VTABLE w t = Ok a -> (2 <= fuel)%nat ->
  send_lookup uniq PN_lookup fuel w a k = Ok (opt0 (find_key k (sc_methods c))).
Proof.
  intros R Hc A HF.
  destruct (rep_look _ _ _ R) as (f & cl & cv & Ev & Lf & Hf & Fn).
  destruct (rep_class _ _ _ R _ _ Ev) as (av & vv & AV & HVV & _).
  assert (BL : bind_lookup uniq PN_lookup fuel w a = Ok f).
  { unfold bind_lookup. rewrite (typecheck_ok _ _ _ _ _ R Ev). cbn [negb].
    destruct (class_vt _ _ _ _ _ _ R Hc A) as (vt & Hv & _ & MM).
    unfold bind_start. rewrite Z.eqb_refl, (get_vt_ok _ _ _ Hv). cbn [bind]. unfold IS_METACLASS.
    assert (LV : forall fu, (1 <= fu)%nat -> bind_loop fu (fun vt0 => lookup uniq w vt0 PN_lookup) w av = Ok f).
    { intros [|fu] H1; [lia|]. cbn [bind_loop]. rewrite (lookup_ok _ _ _ _ _ _ _ R Ev AV), Lf. cbn [bind opt0].
      rewrite (get_vt_ok _ _ _ HVV). cbn [bind]. pose proof (rep_a_pos _ _ _ Hf). unfold PN_NIL.
      destruct (Z.eqb_spec f 0); [lia|]. reflexivity. }
    destruct (sc_meta c) as [m|] eqn:M.
    - rewrite (meta_pos _ _ _ _ _ _ _ R Hc M MM). cbn [negb bind].
      destruct (rep_meta _ _ _ R _ _ _ Hc M) as (cm & Em & Mm).
      pose proof (rep_mparent _ _ _ R _ _ Em Mm) as PM.
      destruct (class_vt _ _ _ _ _ _ R Em MM) as (vm & Hvm & PV & _). rewrite PM in PV. cbn [opt0] in PV.
      destruct (Z.eq_dec m PN_TVTABLE) as [->|NM].
      { assert (EM : v_meta vt = av) by congruence. rewrite EM. apply LV. lia. }
      destruct fuel as [|[|fu]]; [lia|lia|]. cbn [bind_loop]. rewrite (lookup_ok _ _ _ _ _ _ _ R Em MM).
      rewrite (rep_nolook _ _ _ R m cm Em NM). cbn [bind opt0]. rewrite (get_vt_ok _ _ _ Hvm). cbn [bind].
      rewrite PV. change (0 =? PN_NIL) with true. cbn [negb orb]. change (PN_TVTABLE =? 0) with false. cbn [orb].
      rewrite AV. cbn [bind]. apply (LV (Datatypes.S fu)). lia.
    - rewrite MM. change (PN_NIL =? PN_NIL) with true. cbn [negb]. rewrite AV. cbn [bind]. apply LV. lia. }
  unfold send_lookup. rewrite BL. cbn [bind]. rewrite (addr_of_cl _ _ _ _ _ R Hf). cbn [bind]. rewrite Hf, Fn.
  apply (lookup_ok _ _ _ _ _ _ _ R Hc A).
Qed.

Lemma bind_msg_ok n w S v t k r : rep n w S -> rcv_class w S v t -> nearest S t k r ->
  terminates (fun fuel => bind_msg uniq PN_lookup fuel w v k) (Ok (opt0 r)).
Proof.
  intros R HV NR.
  assert (HC : exists c, sget S t = Some c) by (inversion NR; eauto). destruct HC as (c & Hc).
  destruct (bind_start_ok _ _ _ _ _ _ R HV Hc) as (ty & start & T & TC & BS & A).
  (* the loop's behaviour does not depend on the fuel of the nested sends once it is at least 2 *)
  set (look0 := fun vt => if (k =? PN_lookup) && (ty =? PN_TVTABLE) then lookup uniq w vt k else send_lookup uniq PN_lookup 2 w vt k).
  assert (HL : forall fuel, (2 <= fuel)%nat -> forall t c a, sget S t = Some c -> PN_VTABLE w t = Ok a ->
     (if (k =? PN_lookup) && (ty =? PN_TVTABLE) then lookup uniq w a k else send_lookup uniq PN_lookup fuel w a k) = Ok (opt0 (find_key k (sc_methods c)))).
  { intros fuel F t1 c1 a1 E1 A1. destruct ((k =? PN_lookup) && (ty =? PN_TVTABLE)).
    - apply (lookup_ok _ _ _ _ _ _ _ R E1 A1).
    - apply (send_lookup_ok _ _ _ _ _ _ _ _ R E1 A1 F). }
  assert (GEN : forall t k' r, nearest S t k' r -> k' = k -> forall a, PN_VTABLE w t = Ok a ->
     exists N, forall fuel f2, (N <= fuel)%nat -> (2 <= f2)%nat ->
       bind_loop fuel (fun vt => if (k =? PN_lookup) && (ty =? PN_TVTABLE) then lookup uniq w vt k else send_lookup uniq PN_lookup f2 w vt k) w a = Ok (opt0 r)).
  { intros t1 k1 r1 H1. induction H1 as [t1 k1 c1 m E F|t1 k1 c1 p r1 E F P N IH|t1 k1 c1 E F P]; intros -> a A1.
    - exists 1%nat. intros [|f] f2 Hf H2; [lia|]. cbn [bind_loop]. rewrite (HL f2 H2 t1 c1 a E A1), F. cbn [bind opt0].
      destruct (rep_class _ _ _ R t1 c1 E) as (a2 & v2 & A2 & Hv & _). assert (a2 = a) by congruence. subst a2.
      rewrite (get_vt_ok _ _ _ Hv). cbn [bind]. pose proof (method_pos _ _ _ _ _ _ _ R E F).
      unfold PN_NIL. destruct (Z.eqb_spec m 0); [lia|]. reflexivity.
    - destruct (rep_class _ _ _ R t1 c1 E) as (a2 & v2 & A2 & Hv & _ & PV & _). assert (a2 = a) by congruence. subst a2.
      rewrite P in PV. cbn [opt0] in PV. destruct (rep_parent0 _ _ _ R t1 c1 p E P) as (cp & Ep).
      destruct (rep_class _ _ _ R p cp Ep) as (ap & vp & AP & _).
      destruct (IH eq_refl ap AP) as (N0 & H0). exists (1 + N0)%nat. intros [|f] f2 Hf H2; [lia|]. cbn [bind_loop].
      rewrite (HL f2 H2 t1 c1 a E A1), F. cbn [bind opt0]. rewrite (get_vt_ok _ _ _ Hv). cbn [bind]. rewrite PV.
      pose proof (rep_range _ _ _ R p cp Ep) as RG. unfold PN_TNIL in RG.
      change (0 =? PN_NIL) with true. cbn [negb orb]. destruct (Z.eqb_spec p 0); [lia|].
      rewrite AP. cbn [bind]. apply H0; lia.
    - exists 1%nat. intros [|f] f2 Hf H2; [lia|]. cbn [bind_loop]. rewrite (HL f2 H2 t1 c1 a E A1), F. cbn [bind opt0].
      destruct (rep_class _ _ _ R t1 c1 E) as (a2 & v2 & A2 & Hv & _ & PV & _). assert (a2 = a) by congruence. subst a2.
      rewrite (get_vt_ok _ _ _ Hv). cbn [bind]. rewrite PV, P. cbn [opt0]. reflexivity. }
  destruct (GEN t k r NR eq_refl start A) as (N & HN). exists (N + 2)%nat. intros fuel HF. unfold bind_msg.
  rewrite T. cbn [bind]. rewrite TC. cbn [negb]. rewrite BS. cbn [bind]. apply HN; lia.
Qed.

(** ** Allocation of anything but a vtable, and stores into instances *)
Lemma hget_snoc h o vts lob x : hget (mkW (h ++ [o]) vts lob) x = if x =? addr (length h) then Some o else hget (mkW h vts lob) x.
Proof.
  destruct (Z.eqb_spec x (addr (length h))) as [->|N].
  - rewrite hget_addr. cbn [w_heap]. rewrite nth_error_app2 by lia. rewrite Nat.sub_diag. reflexivity.
  - unfold hget. destruct (slot x) as [j|] eqn:SX; [|reflexivity]. apply slot_Some in SX. subst x. cbn [w_heap].
    destruct (Nat.lt_ge_cases j (length h)) as [L|L].
    + rewrite nth_error_app1 by exact L. reflexivity.
    + rewrite nth_error_app2 by exact L. rewrite (proj2 (nth_error_None h j)) by lia.
      destruct (j - length h)%nat as [|j'] eqn:J; [|destruct j'; reflexivity]. exfalso. apply N. f_equal. lia.
Qed.
(** a step that changes no class *)
Lemma rep_same n w w' S : rep n w S -> n < limit ->
  w_vts w' = w_vts w -> w_lobby w' = w_lobby w -> Z.of_nat (length (w_heap w')) <= Z.of_nat (length (w_heap w)) + 10 ->
  (forall x o, hget w x = Some o -> (forall ty f, o <> OObj ty f) -> exists o', hget w' x = Some o' /\ kept o o') ->
  (forall x ty f, hget w' x = Some (OObj ty f) -> (exists f0, hget w x = Some (OObj ty f0) /\ zlen f = zlen f0) \/
     exists c, sget S ty = Some c /\ PN_TNIL <= ty /\ ty <> PN_TVTABLE /\ ty <> PN_TCLOSURE /\ ty <> PN_TPROTO /\
       zlen f = match sc_fields c with Some l => zlen l | None => 0 end) ->
  rep (n + 1) w' S.
Proof.
  intros R Hn V L SZ K OB.
  assert (PV : forall x y, PN_VTABLE w x = Ok y -> PN_VTABLE w' x = Ok y) by (intros x y; unfold PN_VTABLE; rewrite V; auto).
  assert (KC : forall x cl, hget w x = Some (OCl cl) -> exists cl', hget w' x = Some (OCl cl') /\ c_fn cl' = c_fn cl).
  { intros x cl H. destruct (K x _ H) as (o' & H' & KO); [discriminate|].
    apply kept_cl in KO. destruct KO as (c' & -> & F). eauto. }
  split.
  - intros t c E. destruct (rep_class _ _ _ R t c E) as (a & v & A & H & T & P & M & D & O & C & F). exists a, v.
    destruct (K a _ H) as (o' & H' & KO); [discriminate|]. cbn in KO. subst o'.
    split; [auto|]. split; [exact H'|]. split; [exact T|]. split; [exact P|].
    split; [destruct (sc_meta c); auto|]. split; [exact D|]. split; [lia|]. split; [|exact F].
    intros k m Ek. destruct (C k m Ek) as (cl & HC). destruct (KC _ _ HC) as (cl' & HC' & _). eauto.
  - rewrite V. apply (rep_next _ _ _ R).
  - apply (rep_range _ _ _ R).
  - apply (rep_meta _ _ _ R).
  - apply (rep_mparent _ _ _ R).
  - apply (rep_parent0 _ _ _ R).
  - pose proof (rep_size _ _ _ R). lia.
  - pose proof (rep_steps _ _ _ R). lia.
  - rewrite L. destruct (rep_lobby _ _ _ R) as (LB & X). split; [apply PV, LB|exact X].
  - intros x ty f H. destruct (OB x ty f H) as [(f0 & H0 & ZL)|X]; [|exact X].
    rewrite ZL. apply (rep_obj _ _ _ R x ty f0 H0).
  - destruct (rep_look _ _ _ R) as (f & cl & c0 & E0 & X & H & F). destruct (KC _ _ H) as (cl' & H' & F').
    exists f, cl', c0. repeat (split; [assumption|]). congruence.
  - apply (rep_nolook _ _ _ R).
Qed.
Lemma rep_alloc n w S o : rep n w S -> n < limit ->
  (forall ty f, o = OObj ty f -> exists c, sget S ty = Some c /\ PN_TNIL <= ty /\ ty <> PN_TVTABLE /\ ty <> PN_TCLOSURE /\ ty <> PN_TPROTO /\
       zlen f = match sc_fields c with Some l => zlen l | None => 0 end) ->
  rep (n + 1) (fst (alloc w o)) S.
Proof.
  intros R Hn HO. unfold alloc. cbn [fst]. apply (rep_same n w); auto.
  - cbn [w_heap]. rewrite app_length. cbn [length]. lia.
  - intros x o' H _. exists o'. split; [apply (hget_app w [o]), H|apply kept_refl].
  - intros x ty f. rewrite hget_snoc. destruct (x =? addr (length (w_heap w))).
    + intros H. injection H as ->. right. apply HO. reflexivity.
    + intros H. left. exists f. split; [|reflexivity]. destruct w. exact H.
Qed.

Ltac znil := change (zlen (@nil Z)) with 0 in *.
(** ** A new class *)
Lemma set_end V x t vts : vts = V ++ [0] -> t = zlen V + PN_TNIL -> forall h lb,
  set_VTABLE (mkW h vts lb) t x = Ok (mkW h (V ++ [x]) lb).
Proof.
  intros -> -> h lb. unfold set_VTABLE. cbn [w_vts]. replace (zlen V + PN_TNIL - PN_TNIL) with (zlen V) by lia.
  pose proof (zlen_nonneg V). rewrite wr_ok by (rewrite zlen_app, zlen_cons; znil; lia). cbn [bind]. unfold with_vts. cbn [w_heap w_lobby].
  do 2 f_equal. unfold upd. unfold zlen. rewrite Nat2Z.id. rewrite firstn_app, firstn_all, Nat.sub_diag. cbn [firstn]. rewrite app_nil_r.
  f_equal. f_equal. apply skipn_all2. rewrite app_length. cbn [length]. lia.
Qed.
Definition vt0 (p t meta ctor : Z) : vtable := mkVt p t PN_NIL 0 None table_empty meta ctor None.
Definition no_call : obj := OCl (mkCl F_no_call PN_NIL [] PN_NIL).
Lemma type_new_end h V lb parent vp : hget (mkW h (V ++ [0]) lb) parent = Some (OVt vp) ->
  type_new (mkW h (V ++ [0]) lb) (zlen V + PN_TNIL) parent =
  Ok (mkW (h ++ [OVt (vt0 (v_type vp) (zlen V + PN_TNIL) (addr (length h + 2)) (addr (length h + 1))); no_call;
                 OVt (vt0 PN_TVTABLE (zlen V + 1 + PN_TNIL) PN_NIL (addr (length h + 3))); no_call])
          (V ++ [addr (length h); addr (length h + 2)]) lb, addr (length h)).
Proof.
  intros HP. unfold type_new. pose proof (rep_a_pos _ _ _ HP) as PP. unfold PN_NIL at 1. destruct (Z.eqb_spec parent 0); [lia|].
  rewrite (get_vt_ok _ _ _ HP). cbn [bind]. unfold closure_new, alloc. cbn [w_heap w_vts w_lobby repeat].
  rewrite <- app_assoc. cbn [app]. rewrite app_length. cbn [length].
  rewrite (addr_end h). rewrite hset_tail. cbn [firstn skipn app].
  rewrite (set_end V) by reflexivity. cbn [bind].
  unfold add_metaclass. unfold get_vt at 1. rewrite hget_tail. cbn [nth_error bind].
  unfold alloc. cbn [w_heap w_vts w_lobby]. rewrite <- app_assoc. cbn [app]. rewrite app_length. cbn [length].
  rewrite hset_tail. cbn [firstn skipn app v_parent v_type v_name v_ivlen v_ivars v_methods v_ctor v_ivfunc].
  unfold with_vts, closure_new, alloc. cbn [w_heap w_vts w_lobby repeat]. rewrite <- (app_assoc h). cbn [app]. rewrite app_length. cbn [length].
  rewrite hset_tail. cbn [firstn skipn app]. rewrite zlen_app, zlen_cons; znil.
  rewrite (set_end (V ++ [addr (length h + 0)])); [|reflexivity|rewrite zlen_app, zlen_cons; znil; lia].
  cbn [bind]. rewrite <- (app_assoc V). cbn [app]. unfold vt0, no_call, PN_NIL. rewrite (Z.add_0_r 1). reflexivity.
Qed.

Lemma push_unless_ok t v : wf t -> 1 <= t_alloc t -> t_len t < 2 ^ 26 ->
  exists t' r, tuple_push_unless e t v = Ok (t', r) /\ wf t' /\ 1 <= t_alloc t' /\
    contents t' = (if memz v (contents t) then contents t else contents t ++ [v]).
Proof.
  intros W A Hl. pose proof (zlen_contents t W) as LC. pose proof W as [H1 [H2 H3]].
  destruct (PropTuple2.C15_find t v W) as [r [Er H]]. unfold tuple_push_unless. rewrite Er. cbn [bind].
  assert (MZ : forall l, In v l -> memz v l = true) by (intros l X; apply existsb_exists; exists v; rewrite Z.eqb_refl; auto).
  assert (MN : forall l, ~ In v l -> memz v l = false).
  { intros l X. unfold memz. destruct (existsb (Z.eqb v) l) eqn:EX; [|reflexivity]. apply existsb_exists in EX.
    destruct EX as (y & IY & EY). apply Z.eqb_eq in EY. subst y. contradiction. }
  destruct H as [[l1 [l2 [E [Ni Hr]]]]|[Ni Hr]].
  - assert (HL : Z.of_nat (length l1) < t_len t).
    { rewrite <- LC, E, zlen_app, zlen_cons. unfold zlen. lia. }
    unfold PN_NONE. destruct (r =? 4294967295) eqn:E1; [lia|]. cbn [negb].
    exists t, r. repeat (split; [assumption || reflexivity|]). rewrite MZ; [reflexivity|]. rewrite E. apply in_or_app. right. left. reflexivity.
  - subst r. unfold PN_NONE. destruct (2 ^ 32 - 1 =? 4294967295) eqn:E1; [|lia]. cbn [negb].
    destruct (tuple_push_ok e t v W A Hl) as [t' [E [W' [A' C]]]]. rewrite E. cbn [bind].
    eexists t', _. split; [reflexivity|]. split; [exact W'|]. split; [lia|]. rewrite (MN _ Ni). exact C.
Qed.
Lemma memz_app x l l' : memz x (l ++ l') = memz x l || memz x l'.
Proof. apply existsb_app. Qed.
Lemma memz_In x l : memz x l = true <-> In x l.
Proof.
  unfold memz. rewrite existsb_exists. split.
  - intros (y & H & E). apply Z.eqb_eq in E. congruence.
  - intros H. exists x. rewrite Z.eqb_refl. auto.
Qed.
Lemma inherit_walk pv : forall iv k, wf iv -> 1 <= t_alloc iv -> NoDup pv -> t_len iv + zlen pv < 2 ^ 26 ->
  exists t', walk (R := Empty_set) (fun _ x t => do (t, _) <- tuple_push_unless e t x; Ok (inl t)) k pv iv = Ok (inl t') /\
    wf t' /\ 1 <= t_alloc t' /\ contents t' = contents iv ++ filter (fun x => negb (memz x (contents iv))) pv.
Proof.
  induction pv as [|x pv IH]; intros iv k W A ND L.
  - exists iv. cbn [walk filter]. rewrite app_nil_r. auto.
  - rewrite zlen_cons in L. pose proof (zlen_nonneg pv) as ZP. inversion ND as [|? ? NI ND']; subst.
    destruct (push_unless_ok iv x W A) as (t1 & r & E & W1 & A1 & C1); [lia|].
    cbn [walk]. rewrite E. cbn [bind].
    assert (L1 : t_len t1 <= t_len iv + 1).
    { rewrite <- (zlen_contents t1 W1), C1, <- (zlen_contents iv W). destruct (memz x (contents iv)); [lia|].
      rewrite zlen_app, zlen_cons. znil. lia. }
    destruct (IH t1 (k + 1) W1 A1 ND') as (t2 & E2 & W2 & A2 & C2); [lia|].
    exists t2. split; [exact E2|]. split; [exact W2|]. split; [exact A2|]. rewrite C2, C1. cbn [filter].
    destruct (memz x (contents iv)) eqn:M; cbn [negb]; [reflexivity|].
    rewrite <- app_assoc. cbn [app]. do 2 f_equal. apply filter_ext_in. intros y Hy. rewrite memz_app. cbn [memz existsb].
    destruct (Z.eqb_spec y x) as [->|N]; [contradiction|]. rewrite !orb_false_r. reflexivity.
Qed.

(** the tuple of declared fields *)
Definition decl_ok (ivars : option tuple) (own : option (list Z)) : Prop :=
  match ivars, own with
  | None, None => True
  | Some iv, Some l => wf iv /\ 1 <= t_alloc iv /\ contents iv = l
  | _, _ => False
  end.
Lemma merge_ok ivars own pivars pl : decl_ok ivars own -> decl_ok pivars pl ->
  (forall l, pl = Some l -> NoDup l) ->
  (forall l, own = Some l -> zlen l < 2^25) -> (forall l, pl = Some l -> zlen l < 2^25) ->
  exists r, (match pivars with
     | Some pv => do iv <- (match ivars with Some iv => Ok iv | None => tuple_empty e end);
                  do iv <- inherit e pv iv; Ok (Some iv)
     | None => Ok ivars end) = Ok r /\ decl_ok r (merge_fields own pl).
Proof.
  intros D DP ND B BP. destruct pivars as [pv|], pl as [pl|]; cbn in DP; try contradiction.
  - destruct DP as (WP & AP & CP).
    assert (X : exists iv, (match ivars with Some iv => Ok iv | None => tuple_empty e end) = Ok iv /\ wf iv /\ 1 <= t_alloc iv /\
       contents iv = (match own with Some o => o | None => [] end) /\ zlen (contents iv) < 2^25).
    { destruct ivars as [iv|], own as [o|]; cbn in D; try contradiction.
      - destruct D as (W & A & C). exists iv. rewrite C. repeat (split; [assumption || reflexivity|]). apply B. reflexivity.
      - destruct (tuple_empty_ok e) as (iv & E & W & A & C). exists iv. rewrite C. znil. repeat (split; [assumption || lia || reflexivity|]). lia. }
    destruct X as (iv & E & W & A & C & L). rewrite E. cbn [bind]. unfold inherit. rewrite TUPLE_EACH_ok by exact WP.
    destruct (inherit_walk (contents pv) iv 0 W A) as (t' & E' & W' & A' & C').
    + rewrite CP. apply ND. reflexivity.
    + rewrite <- (zlen_contents iv W). rewrite CP. specialize (BP pl eq_refl). lia.
    + rewrite E'. cbn [bind]. exists (Some t'). split; [reflexivity|]. cbn. rewrite C', C, CP. auto.
  - exists ivars. split; [reflexivity|]. cbn. exact D.
Qed.

Lemma class_new_ok n w S p pa c cl ivars own : rep n w S -> n < limit ->
  sget S p = Some c -> PN_VTABLE w p = Ok pa -> p <> PN_TLOBBY -> value_ok w cl ->
  decl_ok ivars own -> (forall t c l, sget S t = Some c -> sc_fields c = Some l -> NoDup l /\ zlen l < 2^25) ->
  (forall l, own = Some l -> zlen l < 2^25) ->
  forall self, self = pa \/ (p = PN_TOBJECT /\ (self = PN_NIL \/ self = w_lobby w)) ->
  exists w' a, class_new uniq e jit w cl self ivars = Ok (w', a) /\ rep (n + 1) w' (spec_class PN_TVTABLE S p own) /\
    PN_VTABLE w' (s_next S) = Ok a /\
    (forall x o, hget w x = Some o -> hget w' x = Some o) /\
    exists v, hget w' a = Some (OVt v) /\
      ((exists c, hget w cl = Some (OCl c)) /\ v_ctor v = cl \/
       (forall c, PN_IS_PTR cl = true -> hget w cl <> Some (OCl c)) /\
       exists vp, hget w pa = Some (OVt vp) /\ v_ctor v = v_ctor vp).
Proof.
  intros R Hn Hc A NL VO DO ND BO self SELF.
  destruct (rep_class _ _ _ R p c Hc) as (pa2 & vp & A2 & Hp & Tp & Pp & Mp & Dp & Op & Cp & Fp).
  assert (pa2 = pa) by congruence. subst pa2.
  (* the parent *)
  assert (PAR : (if (self =? PN_NIL) || (self =? w_lobby w) then PN_VTABLE w PN_TOBJECT else Ok self) = Ok pa).
  { destruct SELF as [->|(-> & [->| ->])].
    - pose proof (rep_a_pos _ _ _ Hp). unfold PN_NIL. destruct (Z.eqb_spec pa 0); [lia|]. cbn [orb].
      destruct (Z.eqb_spec pa (w_lobby w)) as [E|E]; [|reflexivity]. exfalso. apply NL.
      destruct (rep_lobby _ _ _ R) as (LB & cl0 & EL).
      apply (class_addr_ne n w S p PN_TLOBBY c cl0 pa R Hc EL A). congruence.
    - rewrite Z.eqb_refl. cbn [orb]. exact A.
    - rewrite Z.eqb_refl, orb_true_r. exact A. }
  unfold class_new. rewrite PAR. cbn [bind]. rewrite (get_vt_ok _ _ _ Hp). cbn [bind].
  destruct w as [h V lb]. unfold with_vts. cbn [w_heap w_vts w_lobby].
  assert (HV : forall V' x, hget (mkW h V' lb) x = hget (mkW h V lb) x) by reflexivity.
  rewrite (type_new_end h V lb pa vp) by exact Hp. cbn [bind].
  set (L := length h). set (a := addr L). set (m := addr (L + 2)).
  set (T := zlen V + PN_TNIL).
  set (rest := [no_call; OVt (vt0 PN_TVTABLE (zlen V + 1 + PN_TNIL) PN_NIL (addr (L + 3))); no_call]).
  set (v0 := vt0 (v_type vp) T m (addr (L + 1))).
  assert (DP : decl_ok (v_ivars vp) (sc_fields c)).
  { unfold fields_rep in Fp. unfold decl_ok. destruct (v_ivars vp), (sc_fields c); try contradiction; [|exact I]. intuition. }
  destruct (merge_ok ivars own (v_ivars vp) (sc_fields c) DO DP) as (r & ER & DR).
  { intros l El. apply (ND p c l Hc El). } { exact BO. } { intros l El. apply (ND p c l Hc El). }
  assert (SGp : sget S p = Some c) by exact Hc.
  rewrite ER. cbn [bind].
  assert (STEP : exists v1, (match r with Some iv => ivars_set uniq jit (mkW (h ++ OVt v0 :: rest) (V ++ [a; m]) lb) a iv
        | None => Ok (mkW (h ++ OVt v0 :: rest) (V ++ [a; m]) lb) end) = Ok (mkW (h ++ OVt v1 :: rest) (V ++ [a; m]) lb) /\
     fields_rep v1 (merge_fields own (sc_fields c)) /\ v_parent v1 = v_type vp /\ v_type v1 = T /\ v_meta v1 = m /\ v_methods v1 = table_empty).
  { destruct r as [iv|].
    - unfold ivars_set. unfold get_vt. unfold a, L. rewrite (addr_end h), hget_tail. cbn [nth_error bind].
      rewrite hset_tail. cbn [firstn skipn app]. eexists. split; [reflexivity|]. cbn [v_parent v_type v_meta v_methods v0 vt0].
      split; [|auto]. unfold fields_rep, decl_ok in *. cbn [v_ivars v_ivlen v_ivfunc v0 vt0].
      destruct (merge_fields own (sc_fields c)) as [l|]; [|contradiction]. destruct DR as (W & AL & CT).
      repeat (split; [assumption|]). split; [rewrite <- CT; symmetry; apply (zlen_contents iv W)|].
      change (ztake (t_len iv) (t_mem iv)) with (contents iv). rewrite CT. reflexivity.
    - exists v0. split; [reflexivity|]. cbn. split; [|auto]. unfold fields_rep, decl_ok in *.
      destruct (merge_fields own (sc_fields c)); [contradiction|]. cbn. auto. }
  destruct STEP as (v1 & EV & FR & PV & TV & MV & MeV). rewrite EV. cbn [bind].
  set (w4 := mkW (h ++ OVt v1 :: rest) (V ++ [a; m]) lb).
  assert (OLD : forall x o, hget (mkW h V lb) x = Some o -> hget w4 x = Some o).
  { intros x o H. apply (hget_app (mkW h V lb) (OVt v1 :: rest)) in H. exact H. }
  assert (HA : hget w4 a = Some (OVt v1)) by (unfold w4, a, L; rewrite (addr_end h), hget_tail; reflexivity).
  assert (VO4 : value_ok w4 cl) by (intros EP; destruct (VO EP) as (o & H & X); exists o; split; [apply OLD, H|exact X]).
  destruct (isc_spec w4 cl VO4) as [(ccl & HC & EC)|(NC & EC)].
  all: rewrite EC; cbn [bind]; rewrite (get_vt_ok _ _ _ (OLD _ _ Hp)); cbn [bind]; rewrite (get_vt_ok _ _ _ HA); cbn [bind].
  all: match goal with |- context [hset _ _ (OVt ?vf)] => set (v2 := vf) end.
  all: assert (HS : hset w4 a (OVt v2) = mkW (h ++ OVt v2 :: rest) (V ++ [a; m]) lb)
      by (unfold w4, a, L; rewrite (addr_end h), hset_tail; reflexivity).
  all: assert (OLD2 : forall x o, hget (mkW h V lb) x = Some o -> hget (mkW (h ++ OVt v2 :: rest) (V ++ [a; m]) lb) x = Some o)
      by (intros x o H; apply (hget_app (mkW h V lb) (OVt v2 :: rest)) in H; exact H).
  all: assert (HA2 : hget (mkW (h ++ OVt v2 :: rest) (V ++ [a; m]) lb) a = Some (OVt v2))
      by (unfold a, L; rewrite (addr_end h), hget_tail; reflexivity).
  all: assert (HM2 : hget (mkW (h ++ OVt v2 :: rest) (V ++ [a; m]) lb) m = Some (OVt (vt0 PN_TVTABLE (zlen V + 1 + PN_TNIL) PN_NIL (addr (L + 3)))))
      by (unfold m, L; rewrite hget_tail; reflexivity).
  all: assert (NX : s_next S = T) by (pose proof (rep_next _ _ _ R) as X; cbn [w_vts] in X; unfold T; lia).
  all: assert (VA : PN_VTABLE (mkW (h ++ OVt v2 :: rest) (V ++ [a; m]) lb) T = Ok a)
      by (unfold PN_VTABLE, T; cbn [w_vts]; pose proof (zlen_nonneg V); rewrite rd_ok by (rewrite zlen_app, !zlen_cons; znil; lia);
          rewrite znth_app2 by lia; replace (zlen V + PN_TNIL - PN_TNIL - zlen V) with 0 by lia; reflexivity).
  all: assert (VM : PN_VTABLE (mkW (h ++ OVt v2 :: rest) (V ++ [a; m]) lb) (T + 1) = Ok m)
      by (unfold PN_VTABLE, T; cbn [w_vts]; pose proof (zlen_nonneg V); rewrite rd_ok by (rewrite zlen_app, !zlen_cons; znil; lia);
          rewrite znth_app2 by lia; replace (zlen V + PN_TNIL + 1 - PN_TNIL - zlen V) with 1 by lia; reflexivity).
  all: assert (REP : rep (n + 1) (mkW (h ++ OVt v2 :: rest) (V ++ [a; m]) lb) (spec_class PN_TVTABLE S p own)).
  1,3: (
    assert (PVT : forall x y, PN_VTABLE (mkW h V lb) x = Ok y -> PN_VTABLE (mkW (h ++ OVt v2 :: rest) (V ++ [a; m]) lb) x = Ok y)
      by (intros x y EX; unfold PN_VTABLE in *; apply rd_Ok in EX; destruct EX as [RX EX]; cbn [w_vts] in *;
          rewrite rd_ok by (rewrite zlen_app, !zlen_cons; znil; lia); rewrite znth_app1 by lia; congruence);
    pose proof (rep_range _ _ _ R) as RG;
    assert (SG : forall t1 c1, sget (spec_class PN_TVTABLE S p own) t1 = Some c1 ->
       (t1 = T /\ c1 = mkSC (Some p) (Some (T + 1)) [] (merge_fields own (sc_fields c))) \/
       (t1 = T + 1 /\ c1 = mkSC (Some PN_TVTABLE) None [] None) \/ (t1 <> T /\ t1 <> T + 1 /\ sget S t1 = Some c1))
      by (intros t1 c1; unfold sget at 1, spec_class; cbn [s_classes cfind]; rewrite NX, SGp;
          destruct (Z.eqb_spec T t1) as [->|N1]; [intros X; injection X as <-; left; auto|];
          destruct (Z.eqb_spec (T + 1) t1) as [<-|N2]; [intros X; injection X as <-; right; left; auto|];
          intros X; right; right; split; [congruence|]; split; [congruence|exact X]);
    assert (SGO : forall t1 c1, sget S t1 = Some c1 -> sget (spec_class PN_TVTABLE S p own) t1 = Some c1)
      by (intros t1 c1 E1; pose proof (RG t1 c1 E1); unfold sget, spec_class; cbn [s_classes cfind]; rewrite NX in *;
          destruct (Z.eqb_spec T t1); [lia|]; destruct (Z.eqb_spec (T + 1) t1); [lia|]; exact E1);
    assert (SGM : sget (spec_class PN_TVTABLE S p own) (T + 1) = Some (mkSC (Some PN_TVTABLE) None [] None))
      by (unfold sget, spec_class; cbn [s_classes cfind]; rewrite NX;
          destruct (Z.eqb_spec T (T + 1)); [lia|]; rewrite Z.eqb_refl; reflexivity);
    split;
    [ intros t1 c1 E1; destruct (SG t1 c1 E1) as [(-> & ->)|[(-> & ->)|(N1 & N2 & E2)]];
      [ exists a, v2; cbn [sc_parent sc_meta sc_methods sc_fields opt0];
        split; [exact VA|]; split; [exact HA2|]; split; [exact TV|];
        split; [cbn [v2 v_parent]; rewrite PV; exact Tp|]; split; [cbn [v2 v_meta]; rewrite MV; exact VM|];
        cbn [v2 v_methods]; rewrite MeV; split; [apply (den_ext _ _ _ _ (den_empty uniq)); reflexivity|];
        split; [pose proof (rep_steps _ _ _ R); cbn; lia|]; split; [discriminate|exact FR]
      | eexists m, _; cbn [sc_parent sc_meta sc_methods sc_fields opt0];
        split; [exact VM|]; split; [exact HM2|]; cbn [vt0 v_type v_parent v_meta v_methods];
        split; [unfold T; lia|]; split; [reflexivity|]; split; [reflexivity|];
        split; [apply (den_ext _ _ _ _ (den_empty uniq)); reflexivity|];
        split; [pose proof (rep_steps _ _ _ R); cbn; lia|]; split; [discriminate|cbn; auto]
      | apply (class_rep_keep n _ (mkW h V lb)); [apply (rep_class _ _ _ R), E2|lia|exact PVT|];
        intros x o Hx _; exists o; split; [apply OLD2, Hx|apply kept_refl] ]
    | cbn [w_vts spec_class s_next]; rewrite zlen_app, !zlen_cons; znil; unfold T in NX; lia
    | intros t1 c1 E1; cbn [spec_class s_next]; rewrite NX; destruct (SG t1 c1 E1) as [(-> & ->)|[(-> & ->)|(N1 & N2 & E2)]];
      [unfold T; pose proof (zlen_nonneg V); lia|unfold T; pose proof (zlen_nonneg V); lia|pose proof (RG t1 c1 E2); lia]
    | intros t1 c1 m1 E1 M1; destruct (SG t1 c1 E1) as [(-> & ->)|[(-> & ->)|(N1 & N2 & E2)]]; cbn [sc_meta] in M1;
      [injection M1 as <-; eexists; split; [exact SGM|reflexivity]|discriminate|];
      destruct (rep_meta _ _ _ R t1 c1 m1 E2 M1) as (cm & X & Y); exists cm; split; [apply SGO, X|exact Y]
    | intros t1 c1 E1 M1; destruct (SG t1 c1 E1) as [(-> & ->)|[(-> & ->)|(N1 & N2 & E2)]]; cbn [sc_meta] in M1;
      [discriminate|reflexivity|apply (rep_mparent _ _ _ R t1 c1 E2 M1)]
    | intros t1 c1 p1 E1 P1; destruct (SG t1 c1 E1) as [(-> & ->)|[(-> & ->)|(N1 & N2 & E2)]]; cbn [sc_parent] in P1;
      [injection P1 as <-; eexists; apply SGO, Hc
      |injection P1 as <-; destruct (rep_look _ _ _ R) as (f1 & cl1 & cv & EV1 & _); eexists; apply SGO, EV1
      |destruct (rep_parent0 _ _ _ R t1 c1 p1 E2 P1) as (cp & X); eexists; apply SGO, X]
    | pose proof (rep_size _ _ _ R) as X; cbn [w_heap] in *; rewrite app_length; cbn [length rest]; lia
    | pose proof (rep_steps _ _ _ R); lia
    | destruct (rep_lobby _ _ _ R) as (LB & c0 & E0); split; [apply PVT; exact LB|eexists; apply SGO, E0]
    | intros x ty f Hx; assert (HX : hget (mkW h V lb) x = Some (OObj ty f));
      [ unfold hget in *; destruct (slot x) as [j|]; [|discriminate]; cbn [w_heap] in *;
        destruct (Nat.lt_ge_cases j (length h)) as [LJ|LJ];
        [rewrite nth_error_app1 in Hx by exact LJ; exact Hx|];
        rewrite nth_error_app2 in Hx by exact LJ; destruct (j - length h)%nat as [|[|[|[|j']]]]; cbn in Hx; try discriminate;
        destruct j'; discriminate
      | destruct (rep_obj _ _ _ R x ty f HX) as (c0 & E0 & X); exists c0; split; [apply SGO, E0|exact X] ]
    | destruct (rep_look _ _ _ R) as (f & cl1 & c0 & E0 & X & H & F); exists f, cl1, c0;
      split; [apply SGO, E0|]; split; [exact X|]; split; [apply OLD2, H|exact F]
    | intros t1 c1 E1 NT; destruct (SG t1 c1 E1) as [(-> & ->)|[(-> & ->)|(N1 & N2 & E2)]];
      [reflexivity|reflexivity|apply (rep_nolook _ _ _ R t1 c1 E2 NT)] ]).
  all: eexists _, a; split; [reflexivity|]; rewrite HS; split; [exact REP|]; split; [rewrite NX; exact VA|]; split; [exact OLD2|].
  all: exists v2; split; [exact HA2|].
  - left. split; [|reflexivity]. destruct (VO) as (o & Ho & X).
    { destruct (hget_Some _ _ _ HC) as (j & -> & _ & LJ). apply addr_ptr.
      pose proof (rep_size _ _ _ R) as Y. pose proof (rep_steps _ _ _ R). unfold limit in *. cbn [w_heap w4] in *.
      rewrite app_length in LJ. cbn [length rest] in LJ. lia. }
    pose proof (OLD _ _ Ho) as Y. rewrite HC in Y. injection Y as <-. eauto.
  - right. split; [|exists vp; split; [exact Hp|reflexivity]]. intros c1 EP X. apply (NC c1 EP). apply OLD, X.
Qed.
End Rep.
