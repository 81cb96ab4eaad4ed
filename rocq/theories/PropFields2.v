(** Property C37: fields of instances are independent variables. *)
From Coq Require Import ZifyBool.
From Verif Require Import Base Arr GArr WordModel WordProofs TupleModel TupleProofs KhashModel KhashProofs TableModel TableProofs.
From Verif Require Import ObjModel ObjSpec PropIvf ObjProofs PropObj PropObj2 PropFields.
Ltac Zify.zify_post_hook ::= Z.div_mod_to_equations.

Section Obj.
Variable uniq : Z -> Z.
Variable junk : Z -> Z * Z.
Variable e : env.
Variable PN_lookup : Z.
(** the field lookup code is generated (the default build on x86) *)
Notation reach' := (reach uniq junk e true PN_lookup).

(** no field of the class has, by chance, the 32-bit identity number of [f] *)
Definition no_clash (l : list Z) (f : Z) : Prop := forall x, In x l -> u32 (PN_UNIQ uniq x) = u32 (PN_UNIQ uniq f) -> x = f.
(** position of a name *)
Fixpoint pos_of (f : Z) (l : list Z) : option Z :=
  match l with [] => None | x :: r => if x =? f then Some 0 else option_map (fun i => i + 1) (pos_of f r) end.
Lemma pos_of_range f l i : pos_of f l = Some i -> 0 <= i < zlen l.
Proof.
  revert i. induction l as [|x l IH]; intros i; [discriminate|]. cbn [pos_of]. rewrite zlen_cons. pose proof (zlen_nonneg l).
  destruct (x =? f); [intros X; injection X as <-; lia|]. destruct (pos_of f l) as [j|]; [|discriminate].
  intros X. injection X as <-. specialize (IH j eq_refl). lia.
Qed.
Lemma pos_of_In f l : In f l <-> pos_of f l <> None.
Proof.
  induction l as [|x l IH]; cbn [pos_of In]; [split; [intros []|intros H; apply H; reflexivity]|].
  destruct (Z.eqb_spec x f) as [->|N]; [split; [discriminate|auto]|].
  rewrite IH. destruct (pos_of f l); cbn; split; intros H; try discriminate; try (right; discriminate).
  - destruct H as [H|H]; [contradiction|exact H].
  - right. exact H.
Qed.
Lemma pos_of_inj f g l i : pos_of f l = Some i -> pos_of g l = Some i -> f = g.
Proof.
  revert i. induction l as [|x l IH]; intros i; [discriminate|]. cbn [pos_of].
  destruct (Z.eqb_spec x f) as [->|N]; destruct (Z.eqb_spec f g) as [->|N']; try (intros; reflexivity).
  - intros X Y. injection X as <-. destruct (pos_of g l) as [j|] eqn:E; [|discriminate]. injection Y as Y. pose proof (pos_of_range _ _ _ E). lia.
  - destruct (Z.eqb_spec x g) as [->|N2].
    + intros X Y. injection Y as <-. destruct (pos_of f l) as [j|] eqn:E; [|discriminate]. injection X as X. pose proof (pos_of_range _ _ _ E). lia.
    + destruct (pos_of f l) as [j|] eqn:E; [|discriminate]. destruct (pos_of g l) as [k|] eqn:E2; [|discriminate].
      intros X Y. injection X as X. injection Y as Y. apply (IH j); [reflexivity|]. f_equal. lia.
Qed.
Lemma first_pos l f : no_clash l f -> first_index (u32 (PN_UNIQ uniq f)) (map u32 (map (PN_UNIQ uniq) l)) = pos_of f l.
Proof.
  induction l as [|x l IH]; intros NC; [reflexivity|]. cbn [map first_index pos_of].
  assert (NC' : no_clash l f) by (intros y Hy; apply NC; right; exact Hy). rewrite (IH NC').
  destruct (Z.eqb_spec x f) as [->|N]; [rewrite Z.eqb_refl; reflexivity|].
  destruct (Z.eqb_spec (u32 (PN_UNIQ uniq x)) (u32 (PN_UNIQ uniq f))) as [E|E]; [|reflexivity].
  exfalso. apply N, NC; [left; reflexivity|exact E].
Qed.

(** the slot of a field *)
Lemma find_ivar_ok n w S o t fs c f : reach' n w S -> hget w o = Some (OObj t fs) -> sget S t = Some c -> no_clash (names (sc_fields c)) f ->
  terminates (fun fuel => find_ivar uniq fuel w o f) (Ok (match pos_of f (names (sc_fields c)) with Some i => i | None => -1 end)).
Proof.
  intros RE Ho Hc NC. destruct (reach_inv _ _ _ _ _ _ _ _ RE) as (R & _ & F).
  destruct (rep_class _ _ _ _ _ _ R t c Hc) as (a & v & Ha & Hv & _ & _ & _ & _ & _ & _ & FR). unfold fields_rep in FR.
  unfold find_ivar. rewrite (hget_type _ _ _ Ho). cbn [bind otype]. rewrite Ha. cbn [bind]. rewrite (get_vt_ok _ _ _ Hv). cbn [bind].
  destruct (v_ivars v) as [iv|], (sc_fields c) as [l|] eqn:El; try contradiction; cbn [names] in *.
  - destruct FR as (_ & _ & _ & _ & IF). rewrite IF.
    destruct (F t c l Hc El) as [_ LL].
    destruct (C56_generated_lookup (map (PN_UNIQ uniq) l) (PN_UNIQ uniq f)) as (n0 & H).
    { unfold zlen. rewrite map_length. unfold zlen in LL. unfold two32. lia. }
    exists n0. intros k Hk. rewrite (H k Hk). cbn [bind]. rewrite (first_pos l f NC). f_equal.
    destruct (pos_of f l) as [i|] eqn:EP.
    + apply pos_of_range in EP. unfold s64, two63, two64. lia.
    + reflexivity.
  - destruct FR as (IF & _). rewrite IF. exists 0%nat. intros k _. destruct (t >? PN_TUSER); reflexivity.
Qed.

(** ** What a field holds *)
(** value of field [f] of object [o], class layout [l] *)
Definition field (l fs : list Z) (f : Z) : Z := match pos_of f l with Some i => znth fs i | None => PN_NIL end.

Theorem C37_read n w S o t fs c f : reach' n w S -> hget w o = Some (OObj t fs) -> sget S t = Some c -> no_clash (names (sc_fields c)) f ->
  terminates (fun fuel => obj_get uniq fuel w o f) (Ok (field (names (sc_fields c)) fs f)).
Proof.
  intros RE Ho Hc NC. destruct (find_ivar_ok n w S o t fs c f RE Ho Hc NC) as (n0 & H). exists n0. intros k Hk.
  unfold obj_get. rewrite (H k Hk). cbn [bind]. unfold field. destruct (reach_inv _ _ _ _ _ _ _ _ RE) as (R & _ & F).
  destruct (rep_obj _ _ _ _ _ _ R _ _ _ Ho) as (c2 & E2 & _ & _ & _ & _ & ZL). assert (c2 = c) by congruence. subst c2.
  destruct (pos_of f (names (sc_fields c))) as [i|] eqn:EP; [|reflexivity]. apply pos_of_range in EP.
  destruct (Z.geb_spec i 0); [|lia]. rewrite Ho. apply rd_ok.
  rewrite ZL. destruct (sc_fields c); exact EP.
Qed.
(** An undeclared field reads as nil. *)
Theorem C37_undeclared n w S o t fs c f : reach' n w S -> hget w o = Some (OObj t fs) -> sget S t = Some c -> no_clash (names (sc_fields c)) f ->
  ~ In f (names (sc_fields c)) -> terminates (fun fuel => obj_get uniq fuel w o f) (Ok PN_NIL).
Proof.
  intros RE Ho Hc NC NI. pose proof (C37_read n w S o t fs c f RE Ho Hc NC) as H. unfold field in H.
  destruct (pos_of f (names (sc_fields c))) eqn:E; [|exact H]. exfalso. apply NI. apply pos_of_In. congruence.
Qed.
(** A store succeeds, returns the stored value; afterwards the field holds it
    (if declared); every other field of the object, and every other object,
    is as before. *)
Theorem C37_store n w S o t fs c f v : reach' n w S -> n < limit -> hget w o = Some (OObj t fs) -> sget S t = Some c -> no_clash (names (sc_fields c)) f ->
  exists w', terminates (fun fuel => obj_set uniq fuel w o f v) (Ok (w', v)) /\ reach' (n + 1) w' S /\
    (exists fs', hget w' o = Some (OObj t fs') /\
      forall g, field (names (sc_fields c)) fs' g = if (g =? f) && memz f (names (sc_fields c)) then v else field (names (sc_fields c)) fs g) /\
    (forall x, x <> o -> hget w' x = hget w x).
Proof.
  intros RE HN Ho Hc NC. destruct (find_ivar_ok n w S o t fs c f RE Ho Hc NC) as (n0 & H).
  destruct (reach_inv _ _ _ _ _ _ _ _ RE) as (R & _ & F).
  destruct (rep_obj _ _ _ _ _ _ R _ _ _ Ho) as (c2 & E2 & _ & _ & _ & _ & ZL). assert (c2 = c) by congruence. subst c2.
  assert (ZL' : zlen fs = zlen (names (sc_fields c))) by (rewrite ZL; destruct (sc_fields c); reflexivity).
  destruct (pos_of f (names (sc_fields c))) as [i|] eqn:EP.
  - pose proof (pos_of_range _ _ _ EP) as RI.
    assert (SET : forall k, (n0 <= k)%nat -> obj_set uniq k w o f v = Ok (hset w o (OObj t (upd fs i v)), v)).
    { intros k Hk. unfold obj_set. rewrite (H k Hk). cbn [bind]. destruct (Z.geb_spec i 0); [|lia]. rewrite Ho, wr_ok by lia. reflexivity. }
    exists (hset w o (OObj t (upd fs i v))). split; [exists n0; exact SET|].
    split; [eapply reach_set; [exact RE|exact HN|apply (SET n0); lia]|]. split.
    + exists (upd fs i v). split; [apply (hget_hset_same _ _ _ _ Ho)|]. intros g. unfold field.
      assert (MF : memz f (names (sc_fields c)) = true) by (apply memz_In, pos_of_In; congruence). rewrite MF, andb_true_r.
      destruct (Z.eqb_spec g f) as [->|NG].
      * rewrite EP. apply znth_upd_same. lia.
      * destruct (pos_of g (names (sc_fields c))) as [j|] eqn:EG; [|reflexivity]. pose proof (pos_of_range _ _ _ EG). apply znth_upd_other; try lia.
        intros ->. apply NG. apply (pos_of_inj g f _ _ EG EP).
    + intros x NX. apply (hget_hset_other _ _ _ _ _ Ho). congruence.
  - assert (SET : forall k, (n0 <= k)%nat -> obj_set uniq k w o f v = Ok (w, v)).
    { intros k Hk. unfold obj_set. rewrite (H k Hk). reflexivity. }
    exists w. split; [exists n0; exact SET|]. split; [eapply reach_set; [exact RE|exact HN|apply (SET n0); lia]|]. split; [|auto].
    exists fs. split; [exact Ho|]. intros g. assert (MF : memz f (names (sc_fields c)) = false).
    { destruct (memz f (names (sc_fields c))) eqn:M; [|reflexivity]. apply memz_In, pos_of_In in M. congruence. }
    rewrite MF, andb_false_r. reflexivity.
Qed.
(** All fields of a new object read as nil. *)
Theorem C37_fresh n w S t c a : reach' n w S -> n < limit -> sget S t = Some c -> PN_VTABLE w t = Ok a ->
  sc_meta c <> None -> t <> PN_TVTABLE -> t <> PN_TCLOSURE -> t <> PN_TPROTO ->
  exists w' o fs, object_new w a (fun _ => PN_NIL) = Ok (w', o) /\ reach' (n + 1) w' S /\ hget w o = None /\ hget w' o = Some (OObj t fs) /\
    (forall f, field (names (sc_fields c)) fs f = PN_NIL) /\ (forall x, x <> o -> hget w' x = hget w x).
Proof.
  intros RE HN Hc Ha NM NV0 N1 N2. destruct (reach_inv _ _ _ _ _ _ _ _ RE) as (R & _ & F).
  destruct (rep_class _ _ _ _ _ _ R t c Hc) as (a2 & v & Ha2 & Hv & Tv & _ & MV & _ & _ & _ & FR). assert (a2 = a) by congruence. subst a2.
  assert (EQ : object_new w a (fun _ => PN_NIL) = Ok (alloc w (OObj t (map (fun _ => PN_NIL) (seq 0 (Z.to_nat (v_ivlen v))))))).
  { unfold object_new. rewrite (get_vt_ok _ _ _ Hv). cbn [bind]. unfold IS_METACLASS. rewrite Tv.
    destruct (sc_meta c) as [m|] eqn:EM; [|congruence].
    assert (MP : (v_meta v =? PN_NIL) = false) by (eapply meta_pos; eassumption). rewrite MP. destruct (Z.eqb_spec t PN_TVTABLE); [contradiction|]. reflexivity. }
  unfold alloc in EQ. eexists _, _, _. split; [exact EQ|]. split; [eapply reach_new; [exact RE|exact HN|exact Hc|exact Ha|exact N1|exact N2|exact EQ]|].
  split; [rewrite hget_addr; apply nth_error_None; lia|]. split; [rewrite (hget_snoc uniq junk); rewrite Z.eqb_refl; reflexivity|]. split.
  - intros f. unfold field. destruct (pos_of f (names (sc_fields c))) as [i|]; [|reflexivity].
    unfold znth. generalize (Z.to_nat i). generalize (seq 0 (Z.to_nat (v_ivlen v))).
    clear. intros s. induction s as [|x s IH]; intros [|k]; cbn; auto.
  - intros x NX. rewrite (hget_snoc uniq junk). destruct (Z.eqb_spec x (addr (length (w_heap w)))); [contradiction|]. destruct w; reflexivity.
Qed.

(** ** Whole histories of stores: a field holds the last value stored to it *)
Definition stores := list (Z * Z * Z).   (* object, field, value; oldest first *)
Fixpoint run_stores (fuel : nat) (w : world) (h : stores) : res world :=
  match h with [] => Ok w | (o, f, v) :: r => do (w, _) <- obj_set uniq fuel w o f v; run_stores fuel w r end.
Fixpoint last_store (h : stores) (o f : Z) (init : Z) : Z :=
  match h with [] => init | (o', f', v) :: r => last_store r o f (if (o' =? o) && (f' =? f) then v else init) end.
Definition declared (w : world) (S : sstate) (o f : Z) : Prop :=
  exists t fs c, hget w o = Some (OObj t fs) /\ sget S t = Some c /\ no_clash (names (sc_fields c)) f /\ In f (names (sc_fields c)).
Theorem C37_history h : forall n w S, reach' n w S -> n + zlen h <= limit ->
  (forall o f v, In (o, f, v) h -> declared w S o f) ->
  exists w', terminates (fun fuel => run_stores fuel w h) (Ok w') /\
    forall o t fs c f, hget w o = Some (OObj t fs) -> sget S t = Some c -> no_clash (names (sc_fields c)) f ->
      terminates (fun fuel => obj_get uniq fuel w' o f) (Ok (last_store h o f (field (names (sc_fields c)) fs f))).
Proof.
  induction h as [|[[o f] v] h IH]; intros n w S RE HN D.
  - exists w. split; [exists 0%nat; reflexivity|]. intros o t fs c f Ho Hc NC. cbn [last_store]. apply (C37_read n w S o t fs c f RE Ho Hc NC).
  - rewrite zlen_cons in HN. pose proof (zlen_nonneg h).
    destruct (D o f v (or_introl eq_refl)) as (t & fs & c & Ho & Hc & NC & HI).
    destruct (C37_store n w S o t fs c f v RE) as (w1 & (n1 & H1) & RE1 & (fs1 & Ho1 & HF) & K); [lia|exact Ho|exact Hc|exact NC|].
    destruct (IH (n + 1) w1 S RE1) as (w2 & (n2 & H2) & G); [lia| |].
    { intros o2 f2 v2 I2. destruct (D o2 f2 v2 (or_intror I2)) as (t2 & fs2 & c2 & Ho2 & Hc2 & X).
      destruct (Z.eq_dec o2 o) as [->|NE].
      - assert (t2 = t) by congruence. subst t2. exists t, fs1, c2. auto.
      - exists t2, fs2, c2. rewrite K by exact NE. auto. }
    exists w2. split.
    + exists (n1 + n2)%nat. intros k Hk. cbn [run_stores]. rewrite H1 by lia. cbn [bind]. apply H2. lia.
    + intros o2 t2 fs2 c2 f2 Ho2 Hc2 NC2. cbn [last_store]. destruct (Z.eqb_spec o o2) as [<-|NE].
      * assert (t2 = t) by congruence. subst t2. assert (c2 = c) by congruence. subst c2. assert (fs2 = fs) by congruence. subst fs2.
        pose proof (G o t fs1 c f2 Ho1 Hc NC2) as X. rewrite HF in X.
        assert (MF : memz f (names (sc_fields c)) = true) by (apply memz_In, HI). rewrite MF, andb_true_r in X.
        cbn [andb]. rewrite (Z.eqb_sym f f2). exact X.
      * cbn [andb]. apply (G o2 t2 fs2 c2 f2); [rewrite K by congruence; exact Ho2|exact Hc2|exact NC2].
Qed.
End Obj.

(** ** Without generated code (no JIT target) the tagged position is used as
    the slot number: a store to the only field of any instance is outside the
    object, in every reachable state *)
Theorem C37_interpreted_refuted uniq junk e PN_lookup n w S o t fs c f v :
  reach uniq junk e false PN_lookup n w S -> hget w o = Some (OObj t fs) -> t > PN_TUSER -> sget S t = Some c -> sc_fields c = Some [f] ->
  terminates (fun fuel => obj_set uniq fuel w o f v) UB.
Proof.
  intros RE Ho HT Hc Hf. destruct (reach_inv _ _ _ _ _ _ _ _ RE) as (R & _ & F).
  destruct (rep_class _ _ _ _ _ _ R t c Hc) as (a & vt & Ha & Hv & _ & _ & _ & _ & _ & _ & FR). unfold fields_rep in FR. rewrite Hf in FR.
  destruct (v_ivars vt) as [iv|] eqn:EI; [|contradiction]. destruct FR as (W & A1 & C & LE & IF).
  destruct (rep_obj _ _ _ _ _ _ R _ _ _ Ho) as (c2 & E2 & _ & _ & _ & _ & ZL). assert (c2 = c) by congruence. subst c2.
  rewrite Hf in ZL. change (zlen [f]) with 1 in *.
  exists 1%nat. intros [|k] Hk; [lia|]. unfold obj_set, find_ivar. rewrite (hget_type _ _ _ Ho). cbn [bind otype]. rewrite Ha. cbn [bind].
  rewrite (get_vt_ok _ _ _ Hv). cbn [bind]. rewrite IF, EI. destruct (Z.gtb_spec t PN_TUSER); [|lia].
  assert (TL : t_len iv = 1) by (rewrite <- (zlen_contents iv W), C; reflexivity).
  unfold tuple_bsearch. rewrite TL. change (u32 (1 - 1)) with 0.
  pose proof W as (W1 & W2 & W3).
  assert (M0 : rd (t_mem iv) 0 = Ok f).
  { rewrite rd_ok by lia. f_equal. assert (X : znth (contents iv) 0 = f) by (rewrite C; reflexivity). rewrite <- X. unfold contents.
    rewrite znth_ztake by lia. reflexivity. }
  cbn [bsearch_loop]. change (0 <=? 0) with true. change (0 + Z.quot (0 - 0) 2) with 0. cbv iota. rewrite M0. cbn [bind]. rewrite Z.eqb_refl.
  cbn [bind]. change (PN_NUM 0 =? PN_FALSE) with false. change (s64 (PN_NUM 0)) with 1. cbv iota. cbn [bind].
  change (1 >=? 0) with true. cbv iota. rewrite Ho. unfold wr. replace (inb fs 1) with false; [reflexivity|].
  unfold inb. symmetry. lia.
Qed.

(** ** Example: fields x (100) and y (200), inherited by a subclass that adds z (300) *)
Definition ex_fields : res (Z * Z * Z * Z) :=
  do w <- boot ex_uniq ex_junk 9;
  do (w, A) <- class_new ex_uniq ex_env true w PN_NIL PN_NIL (Some (mkT 2 2 [100; 200]));
  do (w, B) <- class_new ex_uniq ex_env true w PN_NIL A (Some (mkT 1 1 [300]));
  do (w, o) <- object_new w B (fun _ => PN_NIL);
  do (w, p) <- object_new w B (fun _ => PN_NIL);
  do (w, _) <- obj_set ex_uniq 40 w o 200 (PN_NUM 5);
  do (w, _) <- obj_set ex_uniq 40 w o 300 (PN_NUM 6);
  do a <- obj_get ex_uniq 40 w o 200;
  do b <- obj_get ex_uniq 40 w o 300;
  do c <- obj_get ex_uniq 40 w o 100;
  do d <- obj_get ex_uniq 40 w p 200;
  Ok (a, b, c, d).
Example C37_example : ex_fields = Ok (PN_NUM 5, PN_NUM 6, PN_NIL, PN_NIL).
Proof. vm_compute. reflexivity. Qed.
