(** What a whole collection does: the final state, read as a relation between the
    object graph before and the object graph after. *)
From Coq Require Import ZifyBool.
From Verif Require Import Base Arr WordModel WordProofs LayoutModel GcModel GcSpec GcProofs GcInv.
Ltac Zify.zify_post_hook ::= Z.div_mod_to_equations.

Lemma scan_mono c : forall f s p b r, scan c f s p b = Ok r -> forall f', (f <= f')%nat -> scan c f' s p b = Ok r.
Proof.
  induction f as [|f IH]; intros s p b r H f' Hf; [discriminate|]. destruct f' as [|f']; [lia|]. cbn [scan] in *.
  destruct (p <? b s); auto. destruct (mark c s p) as [[s1 p1]| |]; cbn [bind] in *; try discriminate. apply IH; auto. lia.
Qed.

Lemma minor_mono c f P h cur stack store strings r : minor c f P h cur stack store strings = Ok r ->
  forall f', (f <= f')%nat -> minor c f' P h cur stack store strings = Ok r.
Proof.
  unfold minor. intros H f' Hf.
  destruct (mark_array c (mkG h cur []) stack) as [[s1 st]| |]; cbn [bind] in *; try discriminate.
  destruct (at_slot (update c) s1 P STRINGS_SLOT) as [s2| |]; cbn [bind] in *; try discriminate.
  destruct (weak_slots c s2 strings) as [str| |]; cbn [bind] in *; try discriminate.
  destruct (mark_store c s2 store) as [s3| |]; cbn [bind] in *; try discriminate.
  destruct (scan c f s3 cur g_cur) as [s4| |] eqn:E; cbn [bind] in *; try discriminate.
  rewrite (scan_mono c f _ _ _ _ E f' Hf). exact H.
Qed.
Section Final.
Variables (c : cfg) (h0 : heap) (start limit : Z).
Hypothesis RD : ready c h0 start limit.
Notation Inv := (Inv c h0 start limit).
Notation placed := (placed c h0 start).
Notation final := (final c h0 start limit).

(** where an object went *)
Fixpoint offset (C : list Z) (a : Z) : Z :=
  match C with [] => 0 | x :: C => if x =? a then 0 else tsz c h0 x + offset C a end.
Definition image (C : list Z) (a : Z) : Z := if c_from c a && PN_IS_PTR a then start + offset C a else a.
Lemma offset_placed C a : In a C -> placed C a (start + offset C a).
Proof.
  induction C as [|x C IH]; intros H; [destruct H|]. cbn [offset]. destruct (Z.eqb_spec x a) as [->|N].
  - exists [], C. split; auto. 
  - destruct H as [?|H]; [congruence|]. destruct (IH H) as (C1 & C2 & -> & E). exists (x :: C1), C2. split; auto. cbn [szs]. lia.
Qed.
Lemma image_moved C s a b : Inv C s -> moved_to c h0 start C a b -> b = image C a.
Proof.
  intros I. unfold moved_to, image. rewrite andb_comm. destruct (c_from c a && PN_IS_PTR a); [|auto].
  intros P. eapply placed_fun; [apply (i_nd _ _ _ _ _ _ I)|exact P|]. apply offset_placed. eapply placed_In; eauto.
Qed.
Definition evac (C : list Z) (a : Z) : Prop := c_from c a = false \/ In a C.
Lemma evac_orig C a o : evac C a -> h0 a = Some o -> orig c h0 start limit C (image C a) o.
Proof.
  intros Ev Ho. destruct (g_obj RD a o Ho) as (P & _). unfold image. rewrite P, andb_true_r. destruct (c_from c a) eqn:F.
  - destruct Ev as [?|Ia]; [congruence|]. left. exists a. split; auto. apply offset_placed. auto.
  - apply old_orig; auto. split; auto.
Qed.
Lemma moved_evac C r r2 : PN_IS_PTR r = true -> moved_to c h0 start C r r2 -> evac C r.
Proof.
  intros P. unfold moved_to, evac. rewrite P. cbn [andb]. destruct (c_from c r); [|auto]. intros H. right. eapply placed_In; eauto.
Qed.
Lemma leads_ptr_obj w v : leads h0 w v -> PN_IS_PTR v = true -> exists o, h0 w = Some o.
Proof. intros (n & L) P. inversion L; subst; eauto. congruence. Qed.
(** a settled word, in the new heap *)
Lemma settled_leads C s w w2 v : final C s -> wsim c h0 start C w w2 -> (h0 w <> None -> settled c w2) -> leads h0 w v -> h0 w <> None ->
  leads (release c (g_heap s)) w2 (image C v) /\ (PN_IS_PTR v = true -> evac C v).
Proof.
  intros Fi Hw St L Hn. destruct L as (n & Ch).
  destruct (final_chain c h0 start limit RD C s Fi n w v Ch w2 Hw (St Hn)) as (m & r2 & _ & Ch2 & Mv).
  destruct Fi as (I & _). split.
  - rewrite <- (image_moved C s v r2 I Mv). exists m. auto.
  - intros P. eapply moved_evac; eauto.
Qed.
Lemma wsim_nonobj C w w2 : wsim c h0 start C w w2 -> PN_IS_PTR w = true -> h0 w = None -> w2 = w.
Proof. intros [->|(n & r & Ch & _)] P N; auto. inversion Ch; subst; congruence. Qed.
Lemma wsim_none C s w w2 : Inv C s -> wsim c h0 start C w w2 -> h0 w = None -> w2 = w.
Proof.
  intros I Hw N. destruct (PN_IS_PTR w) eqn:P; [eapply wsim_nonobj; eauto|eapply wsim_imm; eauto].
Qed.
Definition stack_ok (C : list Z) (stack stack' : list Z) : Prop := Forall2 (rsim c h0 start C) stack stack'.
Lemma stack_in C stack stack' w : stack_ok C stack stack' -> In w stack -> exists w', rsim c h0 start C w w'.
Proof.
  induction 1 as [|x y l l' H F IH]; intros Hi; [destruct Hi|]. destruct Hi as [<-|Hi]; eauto.
Qed.
Lemma slot_now C s a o i : final C s -> evac C a -> h0 a = Some o -> In i (slots c o) ->
  exists o2, release c (g_heap s) (image C a) = Some o2 /\ osim c h0 start C o o2 /\
    wsim c h0 start C (word o i) (word o2 i) /\ (h0 (word o i) <> None -> settled c (word o2 i)).
Proof.
  intros Fi Ev Ho Hi. pose proof Fi as (I & AD & OD). pose proof (evac_orig C a o Ev Ho) as O.
  destruct (released c h0 start limit RD C s _ o I O) as (o2 & R & S & Hh). exists o2. split; auto. split; auto.
  destruct (g_obj RD a o Ho) as (P & _ & W). pose proof (w_slots c o W i Hi) as Hr. split.
  { destruct S as (L & S). destruct (S i) as [E|(_ & n & r & X)]; [lia|left; auto|right; exists n, r; auto]. }
  intros Hn.
  assert (D : done_at c h0 s (image C a) o).
  { unfold image in *. rewrite P, andb_true_r in *. destruct (c_from c a) eqn:F.
    - destruct Ev as [?|Ia]; [congruence|]. eapply AD; eauto. apply offset_placed. auto.
    - apply OD. split; auto. }
  destruct D as (D1 & D2 & _). apply in_app_or in Hi. destruct Hi as [Hi|Hi].
  - destruct (D1 i Hi) as (o3 & H3 & S3). replace o3 with o2 in * by congruence. auto.
  - destruct (D2 i Hi Hn) as (o3 & H3 & S3). replace o3 with o2 in * by congruence. auto.
Qed.
Lemma live_evac C s stack stack' : final C s -> stack_ok C stack stack' -> forall a, live c h0 stack a -> evac C a.
Proof.
  intros Fi St a L. induction L as [w v Hw Lw P|a o F Ho Hf|a o i v L IH Ho Hi Lv P].
  - destruct (stack_in _ _ _ _ St Hw) as (w' & R1 & R2 & _). destruct (leads_ptr_obj w v Lw P) as (ow & Hw0).
    destruct (settled_leads C s w w' v Fi R1) as (_ & X); auto; [|congruence].
    intros Hn. apply R2; auto. apply (g_obj RD w ow Hw0).
  - left. auto.
  - destruct (slot_now C s a o i Fi IH Ho Hi) as (o2 & _ & _ & Hs & Hd). destruct (leads_ptr_obj _ v Lv P) as (ow & Hw0).
    destruct (settled_leads C s _ _ v Fi Hs Hd Lv) as (_ & X); auto. congruence.
Qed.
Lemma live_obj stack a : live c h0 stack a -> exists o, h0 a = Some o /\ is_fwd o = false.
Proof.
  assert (E : forall w v, leads h0 w v -> PN_IS_PTR v = true -> exists o, h0 v = Some o /\ is_fwd o = false).
  { intros w v (n & Ch) P. eapply chain_end; eauto. }
  intros L. destruct L; eauto.
Qed.
Lemma image_new C s a : Inv C s -> evac C a -> c_from c (image C a) = false.
Proof.
  intros I Ev. unfold image. destruct (c_from c a) eqn:F; [|cbn [andb]; auto].
  destruct Ev as [?|Ia]; [congruence|].
  destruct (i_c _ _ _ _ _ _ I a Ia) as (_ & o & Ho & _). destruct (g_obj RD a o Ho) as (-> & _). cbn [andb].
  eapply placed_not_from; eauto. apply offset_placed. auto.
Qed.
Lemma image_inj C s a b : Inv C s -> evac C a -> evac C b -> h0 a <> None -> h0 b <> None -> image C a = image C b -> a = b.
Proof.
  intros I Ea Eb Na Nb. destruct (h0 a) as [oa|] eqn:Ha; [|congruence]. destruct (h0 b) as [ob|] eqn:Hb; [|congruence].
  pose proof (g_obj RD a oa Ha) as (Pa & _). pose proof (g_obj RD b ob Hb) as (Pb & _).
  unfold image. rewrite Pa, Pb, !andb_true_r. unfold evac in *.
  destruct (c_from c a) eqn:Fa, (c_from c b) eqn:Fb; intros E.
  - destruct Ea as [?|Ea]; [congruence|]. destruct Eb as [?|Eb]; [congruence|].
    eapply (placed_inj c h0 start limit RD C); [eapply inv_okc; eauto|apply offset_placed; eauto|]. rewrite E. apply offset_placed; auto.
  - exfalso. destruct Ea as [?|Ea]; [congruence|]. pose proof (offset_placed C a Ea) as P. rewrite E in P.
    destruct (placed_ptr c h0 start limit RD C s a b I P) as (_ & _ & X). congruence.
  - exfalso. destruct Eb as [?|Eb]; [congruence|]. pose proof (offset_placed C b Eb) as P. rewrite <- E in P.
    destruct (placed_ptr c h0 start limit RD C s b a I P) as (_ & _ & X). congruence.
  - auto.
Qed.
Lemma final_preserved C s stack stack' : final C s -> stack_ok C stack stack' ->
  preserved c h0 (release c (g_heap s)) stack stack' (image C).
Proof.
  intros Fi St. pose proof (live_evac C s stack stack' Fi St) as LE. pose proof Fi as (I & _ & _).
  assert (WK : forall w w2, wsim c h0 start C w w2 -> (h0 w <> None -> settled c w2) -> word_kept h0 (release c (g_heap s)) (image C) w w2).
  { intros w w2 Hw Hs. split; [apply (wsim_none C s w w2 I Hw)|]. split; [intros v Hn L; eapply settled_leads; eauto|].
    intros o Ho Hf. destruct (g_obj RD w o Ho) as (Pw & _). assert (Ch0 : chain h0 0 w w) by (eapply ch_obj; eauto).
    unfold image. rewrite Pw, andb_true_r. destruct Hw as [->|(n & r & Ch & Fr & Pl)].
    - destruct (c_from c w) eqn:F; auto. rewrite (Hs ltac:(congruence) Pw) in F. discriminate.
    - destruct (chain_det h0 _ _ _ Ch0 _ _ Ch) as (_ & <-). rewrite Fr.
      eapply placed_fun; [apply (i_nd _ _ _ _ _ _ I)|exact Pl|]. apply offset_placed. eapply placed_In; eauto. }
  constructor.
  - intros a F. unfold image. rewrite F. reflexivity.
  - intros a L. eapply image_new; eauto.
  - intros a b La Lb. destruct (live_obj _ _ La) as (oa & Ha & _). destruct (live_obj _ _ Lb) as (ob & Hb & _).
    eapply image_inj; eauto; congruence.
  - intros a o L Ho. destruct (released c h0 start limit RD C s _ o I (evac_orig C a o (LE a L) Ho)) as (o' & R & S & _).
    exists o'. split; auto. destruct (g_obj RD a o Ho) as (_ & _ & W).
    destruct (osim_shape c h0 start C o o' W S) as (_ & _ & _ & Sz). split; [apply S|]. split; auto. split.
    + intros i Hi Hn. destruct S as (Ln & S). destruct (Z_lt_ge_dec i (zlen (o_words o))).
      * destruct (S i) as [E|(X & _)]; [lia|auto|contradiction].
      * unfold word. rewrite !znth_over by lia. reflexivity.
    + intros i Hi. destruct (slot_now C s a o i Fi (LE a L) Ho Hi) as (o2 & R2 & _ & Hs & Hd).
      replace o2 with o' in * by congruence. apply WK; auto.
  - clear LE. induction St as [|w w2 l l2 (H1 & H2 & _) St IH]; constructor; auto. apply WK; auto.
    intros Hn. apply H2; auto. destruct (h0 w) as [ow|] eqn:E; [|congruence]. apply (g_obj RD w ow E).
Qed.

Lemma final_keep C s : final C s -> wext_k c (mkG h0 start []) s -> keep_ok (release c (g_heap s)) (g_keep s).
Proof.
  intros (I & AD & OD) (_ & K). split.
  - intros a o Ha V. unfold release in Ha. destruct (c_from c a) eqn:F; [discriminate|].
    assert (X : exists o0, o_vt o0 = o_vt o /\ done_at c h0 s a o0).
    { destruct (h0 a) as [o0|] eqn:H0.
      - assert (O : old_obj c h0 a o0) by (split; auto). exists o0. split; auto.
        destruct (orig_now c h0 start limit RD C s a o0 I (old_orig c h0 start limit RD C a o0 O)) as (_ & W & o2 & H2 & S).
        replace o2 with o in * by congruence. symmetry. apply (osim_shape c h0 start C o0 o W S).
      - destruct (heap_none c h0 start limit C s a I H0) as [?|(x & Px)]; [congruence|].
        destruct (i_c _ _ _ _ _ _ I x (placed_In _ _ _ _ _ _ Px)) as (_ & ox & Hx & _). exists ox. split; [|eapply AD; eauto].
        destruct (orig_now c h0 start limit RD C s a ox I (or_introl (ex_intro _ x (conj Px Hx)))) as (_ & W & o2 & H2 & S).
        replace o2 with o in * by congruence. symmetry. apply (osim_shape c h0 start C ox o W S). }
    destruct X as (o0 & E & (_ & _ & D)). apply D. congruence.
  - intros v Hv. destruct (K v Hv) as [[]|(F & N)]. unfold release. rewrite F. auto.
Qed.

(** the heap is well formed again *)
Lemma final_orig C s : final C s -> forall a o2, release c (g_heap s) a = Some o2 ->
  exists x o0, h0 x = Some o0 /\ orig c h0 start limit C a o0 /\ PN_IS_PTR a = true /\ osim c h0 start C o0 o2 /\
    ((o_size o2 = type_size c o0 /\ is_fwd o0 = false) \/ o_size o2 = o_size o0).
Proof.
  intros (I & AD & OD) a o2 Ha. unfold release in Ha. destruct (c_from c a) eqn:F; [discriminate|].
  destruct (h0 a) as [o0|] eqn:H0.
  - assert (O : old_obj c h0 a o0) by (split; auto). pose proof (old_orig c h0 start limit RD C a o0 O) as Or.
    exists a, o0. split; auto. split; auto. split; [apply (g_obj RD a o0 H0)|].
    assert (N : ~ (start <= a < limit)) by (intros X; destruct (g_to RD a X); congruence).
    pose proof (i_ot _ _ _ _ _ _ I a F N) as X. rewrite H0 in X. destruct X as (o3 & A & B & D). replace o3 with o2 in * by congruence. auto.
  - destruct (heap_none c h0 start limit C s a I H0) as [?|(x & Px)]; [congruence|].
    destruct (i_c _ _ _ _ _ _ I x (placed_In _ _ _ _ _ _ Px)) as (_ & ox & Hx & Fx). exists x, ox. split; auto. split; [left; exists x; auto|].
    split; [apply (placed_ptr c h0 start limit RD C s x a I Px)|].
    destruct (i_cp _ _ _ _ _ _ I x a Px) as (o' & o3 & A & B & S & D). replace o' with ox in * by congruence. replace o3 with o2 in * by congruence. auto.
Qed.
Lemma final_wf C s : final C s -> forall a o2, release c (g_heap s) a = Some o2 ->
  PN_IS_PTR a = true /\ wfobj c o2 /\ (is_fwd o2 = true -> PN_IS_PTR (word o2 1) = true).
Proof.
  intros Fi a o2 Ha. pose proof Fi as (I & _ & _). destruct (final_orig C s Fi a o2 Ha) as (x & o0 & Hx & O & P & S & Sz).
  destruct (g_obj RD x o0 Hx) as (_ & _ & W). destruct (osim_shape c h0 start C o0 o2 W S) as (V & T & Sv & Ts).
  destruct (osim_fwd c h0 start C o0 o2 W S) as (Ff & Fc). pose proof S as (L & Sw). split; auto. split.
  - constructor.
    + rewrite L. apply W.
    + intros i Hi. rewrite L. apply (w_slots c o0 W). unfold slots in *. rewrite T, Sv in Hi. auto.
    + auto.
    + intros Hf. destruct (w_size c o0 W ltac:(congruence)) as (A & B & D). rewrite Ts. split; [|split]; auto.
      * destruct Sz as [(-> & _)| ->]; lia.
      * unfold kept in *. rewrite V, L. auto.
  - intros Hf. rewrite Ff in Hf. destruct (g_stub RD x o0 Hx Hf) as (Pw & _). pose proof (w_len c o0 W).
    destruct (Sw 1) as [->|(_ & n & r & _ & _ & Pl)]; [lia|auto|]. apply (placed_ptr c h0 start limit RD C s r _ I Pl).
Qed.

Lemma final_valid C s : final C s -> forall a o2 i, release c (g_heap s) a = Some o2 -> In i (traced c o2) ->
  valid c (release c (g_heap s)) (word o2 i).
Proof.
  intros Fi a o2 i Ha Hi. pose proof Fi as (I & AD & OD). unfold release in Ha. destruct (c_from c a) eqn:F; [discriminate|].
  assert (X : exists x o0, h0 x = Some o0 /\ orig c h0 start limit C a o0 /\ done_at c h0 s a o0).
  { destruct (h0 a) as [o0|] eqn:H0.
    - exists a, o0. split; auto. assert (O : old_obj c h0 a o0) by (split; auto). split; [apply old_orig|]; auto.
    - destruct (heap_none c h0 start limit C s a I H0) as [?|(x & Px)]; [congruence|].
      destruct (i_c _ _ _ _ _ _ I x (placed_In _ _ _ _ _ _ Px)) as (_ & ox & Hx & _). exists x, ox. split; auto. split; [left; exists x; auto|eapply AD; eauto]. }
  destruct X as (x & o0 & Hx & O & (D & _)).
  destruct (orig_now c h0 start limit RD C s a o0 I O) as (_ & W & o3 & H3 & S). replace o3 with o2 in * by congruence.
  destruct (osim_shape c h0 start C o0 o2 W S) as (_ & Ht & _). rewrite Ht in Hi.
  destruct (D i Hi) as (o4 & H4 & S4). replace o4 with o2 in * by congruence.
  destruct (g_val RD x o0 i Hx Hi) as (n & r & Hn & Ch).
  assert (Hs : In i (slots c o0)) by (apply in_or_app; auto). pose proof (w_slots c o0 W i Hs) as Hr.
  assert (Sw : wsim c h0 start C (word o0 i) (word o2 i)).
  { destruct S as (_ & S). destruct (S i) as [E|(_ & n' & r' & X)]; [lia|left; auto|right; exists n', r'; auto]. }
  destruct (final_chain c h0 start limit RD C s Fi n _ r Ch _ Sw S4) as (m & r2 & Hm & Ch2 & _). exists m, r2. split; [lia|auto].
Qed.

Lemma final_whole C s : final C s -> whole c (release c (g_heap s)).
Proof.
  intros Fi a o Ha. destruct (final_wf C s Fi a o Ha) as (A & B & _). split; auto. split; auto. intros i Hi. eapply final_valid; eauto.
Qed.

(** ** The passes put together *)
Lemma stack_ok_app C E l l' : stack_ok C l l' -> stack_ok (C ++ E) l l'.
Proof.
  induction 1 as [|w w2 l l2 (H1 & H2 & H3) F IH]; constructor; auto. split; auto. apply wsim_app. auto.
Qed.
(** the objects a collection looks at, or need not look at *)
Notation unaffected := (GcSpec.unaffected c h0).
Lemma minor_ok P oP stack store strings : old_obj c h0 P oP -> o_vt oP = PN_TSTATE ->
  (forall w, In w stack -> good_root c h0 w) ->
  (forall v, In v store -> PN_IS_PTR v = true -> exists o, old_obj c h0 v o) ->
  (forall a o, old_obj c h0 a o -> In a store \/ unaffected a) ->
  (forall v, In (Some v) strings -> c_from c v = true -> h0 v <> None) ->
  exists N s C C1 stack' strings', (forall fuel, (N <= fuel)%nat ->
      minor c fuel P h0 start stack store strings = Ok (mkR (release c (g_heap s)) (g_cur s) stack' strings' (g_keep s))) /\
    final C s /\ stack_ok C stack stack' /\ Forall2 (weak_res c h0 start C1) strings strings' /\ (exists E, C = C1 ++ E) /\
    keep_ok (release c (g_heap s)) (g_keep s).
Proof.
  intros HP VP Gs Gst Rem Gw. destruct (g_fit RD) as (L & _ & IL & _).
  destruct (mark_array_ok c h0 start limit RD stack [] (mkG h0 start []) (inv_start c h0 start limit RD []) Gs)
    as (s1 & stack' & C1 & E1 & I1 & X1 & St1 & K1). cbn [app] in *.
  assert (Hslot : In STRINGS_SLOT (traced c oP)).
  { unfold traced, is_copied, is_fwd. rewrite VP. vm_compute. auto. }
  destruct (at_slot_ok c h0 start limit RD C1 s1 P oP STRINGS_SLOT I1 (old_orig c h0 start limit RD C1 P oP HP) Hslot)
    as (s2 & C2 & E2 & I2 & X2 & _ & K2).
  destruct (weak_slots_ok c h0 start limit RD (C1 ++ C2) s2 I2 strings Gw) as (strings' & E3 & W3).
  destruct (mark_store_ok c h0 start limit RD store (C1 ++ C2) s2 I2 Gst) as (s3 & C3 & E4 & I3 & X3 & D3).
  destruct (scan_ok c h0 start limit RD L IL (S (length L)) [] ((C1 ++ C2) ++ C3) s3) as (s4 & C4 & E5 & I4 & X4 & AD).
  { exact I3. } { lia. } { intros a b o (Ca & Cb & X & _). destruct Ca; discriminate. }
  cbn [app] in *.
  assert (OD : forall a o, old_obj c h0 a o -> done_at c h0 s4 a o).
  { intros a o Ho. destruct (Rem a o Ho) as [Hst|Un].
    - apply (done_wext c h0 start limit RD _ s3 s4 a o I3); auto. apply old_orig; auto.
    - apply (done_wext c h0 start limit RD _ _ s4 a o (inv_start c h0 start limit RD [])).
      + apply old_orig; auto.
      + eapply wext_trans; [exact X1|]. eapply wext_trans; [exact X2|]. eapply wext_trans; eauto.
      + destruct (Un o (proj2 Ho)). eapply (done_start c h0 start limit RD); eauto. }
  exists (S (length L)), s4, (((C1 ++ C2) ++ C3) ++ C4), (C1 ++ C2), stack', strings'.
  assert (Fi : final (((C1 ++ C2) ++ C3) ++ C4) s4) by (split; auto).
  split; [|split; [|split; [|split; [|split]]]].
  - intros fuel Hf. unfold minor. rewrite E1. cbn [bind]. rewrite E2. cbn [bind]. rewrite E3. cbn [bind]. rewrite E4. cbn [bind].
    replace start with (start + szs c h0 []) at 1 by (cbn [szs]; lia). rewrite (scan_mono c _ _ _ _ _ E5 fuel Hf). reflexivity.
  - split; auto.
  - rewrite <- !app_assoc. apply stack_ok_app. auto.
  - exact W3.
  - exists (C3 ++ C4). rewrite <- !app_assoc. reflexivity.
  - eapply final_keep; [exact Fi|]. apply (wext_trans c _ s1 s4 X1 (wext_trans c _ s2 s4 X2 (wext_trans c _ s3 s4 X3 X4))).
Qed.

(** *** the major collection *)
Lemma chain_release h n w r : chain (release c h) n w r -> chain h n w r.
Proof.
  assert (R : forall v o, release c h v = Some o -> h v = Some o) by (intros v o; unfold release; destruct (c_from c v); congruence).
  induction 1; [apply ch_imm|eapply ch_obj|eapply ch_stub]; eauto.
Qed.
(** at the end nothing is left to update *)
Lemma update_final C s w w2 : final C s -> valid c h0 w -> wsim c h0 start C w w2 -> settled c w2 -> update c s w2 = Ok (s, w2).
Proof.
  intros Fi (n & r & Hn & Ch) Hw St. unfold update. destruct (PN_IS_PTR w2) eqn:P2; [|reflexivity].
  destruct (final_chain c h0 start limit RD C s Fi n w r Ch w2 Hw St) as (m & r2 & Hm & Ch2 & Mv). destruct Fi as (I & _).
  rewrite (chain_fwd _ _ _ _ (chain_release _ _ _ _ Ch2)) by lia. cbn [bind].
  assert (F : c_from c r2 = false).
  { unfold moved_to in Mv. destruct (PN_IS_PTR r && c_from c r) eqn:E.
    - eapply placed_not_from; eauto.
    - subst r2. destruct (PN_IS_PTR r) eqn:Pr; [exact E|].
      exfalso. (* a reference does not lead to an immediate *)
      destruct Hw as [->|(n' & r' & Ch' & F' & Pl)].
      + rewrite (chain_valid_obj c h0 start limit RD n w r Ch P2) in Pr. discriminate.
      + destruct (chain_det h0 _ _ _ Ch _ _ Ch') as (_ & <-). destruct (i_c _ _ _ _ _ _ I r (placed_In _ _ _ _ _ _ Pl)) as (_ & o & Ho & _).
        destruct (g_obj RD r o Ho). congruence. }
  rewrite F. reflexivity.
Qed.
Lemma at_slot_final C s a o i : final C s -> old_obj c h0 a o -> In i (traced c o) ->
  exists s', at_slot (update c) s a i = Ok s' /\ final C s' /\ g_cur s' = g_cur s /\ g_keep s' = g_keep s /\ wext c s s'.
Proof.
  intros Fi Ho Hi. pose proof Fi as (I & AD & OD). pose proof (old_orig c h0 start limit RD C a o Ho) as O.
  destruct (orig_now c h0 start limit RD C s a o I O) as (F & W & o2 & Ha & S).
  assert (Hs : In i (slots c o)) by (apply in_or_app; auto).
  pose proof (w_slots c o W i Hs) as Hr. pose proof S as (L & Hw). unfold at_slot. rewrite Ha, rd_ok by lia. cbn [bind].
  fold (word o2 i).
  assert (V : valid c h0 (word o i)) by (eapply (g_val RD); eauto; apply Ho).
  assert (Sw : wsim c h0 start C (word o i) (word o2 i)).
  { destruct (Hw i) as [E|(_ & n & r & A & B & P)]; [lia|left; auto|right; exists n, r; auto]. }
  assert (St : settled c (word o2 i)).
  { destruct (OD a o Ho) as (D & _). destruct (D i Hi) as (o3 & H3 & S3). replace o3 with o2 in * by congruence. auto. }
  rewrite (update_final C s (word o i) (word o2 i) Fi V Sw St). cbn [bind]. rewrite Ha, wr_ok by lia. cbn [bind].
  eexists. split; [reflexivity|].
  assert (X : wext c s (mkG (hset (g_heap s) a (mkObj (o_size o2) (upd (o_words o2) i (word o2 i)))) (g_cur s) (g_keep s))).
  { apply wext_same; [|reflexivity]. intros x ox Fx Hx. cbn [g_heap]. destruct (Z.eq_dec x a) as [->|N].
    + replace ox with o2 by congruence. eexists. split; [apply hset_same|]. intros j Hj. unfold word. cbn [o_words].
      destruct (Z.eq_dec j i) as [->|Nj]; [rewrite znth_upd_same by lia; auto|]. rewrite znth_upd_other by lia. auto.
    + exists ox. rewrite hset_other by auto. split; auto. }
  split; [|auto]. split; [eapply set_inv; eauto|]. split.
  - intros x b ox P Hx. apply (done_wext c h0 start limit RD C s); auto; [left; exists x; auto|eapply AD; eauto].
  - intros x ox Hx. apply (done_wext c h0 start limit RD C s); auto. apply old_orig; auto.
Qed.
Lemma major_ok P oP stack (wk : bool) lo hi prot strings : old_obj c h0 P oP -> o_vt oP = PN_TSTATE ->
  (forall w, In w stack -> good_root c h0 w) ->
  (if wk then walk c h0 lo hi prot else prot = []) ->
  (forall a o, old_obj c h0 a o -> In a prot \/ unaffected a) ->
  (forall v, In (Some v) strings -> c_from c v = true -> h0 v <> None) ->
  exists N s C stack' strings', (forall fuel, (N <= fuel)%nat ->
      major c fuel P h0 start stack wk lo hi strings = Ok (mkR (release c (g_heap s)) (g_cur s) stack' strings' (g_keep s))) /\
    final C s /\ stack_ok C stack stack' /\ Forall2 (weak_res c h0 start C) strings strings' /\
    keep_ok (release c (g_heap s)) (g_keep s).
Proof.
  intros HP VP Gs Gst Rem Gw. destruct (g_fit RD) as (L & _ & IL & _).
  destruct (mark_array_ok c h0 start limit RD stack [] (mkG h0 start []) (inv_start c h0 start limit RD []) Gs)
    as (s1 & stack' & C1 & E1 & I1 & X1 & St1 & K1). cbn [app] in *.
  assert (Hslot : In STRINGS_SLOT (traced c oP)).
  { unfold traced, is_copied, is_fwd. rewrite VP. vm_compute. auto. }
  assert (Wk : exists s2 C2, (forall fuel, (S (length prot) <= fuel)%nat -> (if wk then scan c fuel s1 lo (fun _ => hi) else Ok s1) = Ok s2) /\
    GcInv.Inv c h0 start limit (C1 ++ C2) s2 /\ wext c s1 s2 /\ (forall v o, In v prot -> old_obj c h0 v o -> done_at c h0 s2 v o)).
  { destruct wk.
    - destruct (walk_ok c h0 start limit RD lo hi prot Gst (S (length prot)) C1 s1) as (s2 & C2 & E2 & I2 & X2 & D2); [lia|auto|].
      exists s2, C2. split; auto. intros fuel Hf. eapply scan_mono; eauto.
    - exists s1, []. rewrite app_nil_r. split; auto. split; auto. split; [apply wext_refl|]. subst prot. intros v o []. }
  destruct Wk as (s2 & C2 & E2 & I2 & X2 & D2).
  destruct (scan_ok c h0 start limit RD L IL (S (length L)) [] (C1 ++ C2) s2) as (s3 & C3 & E3 & I3 & X3 & AD).
  { exact I2. } { lia. } { intros a b o (Ca & Cb & X & _). destruct Ca; discriminate. }
  cbn [app] in *.
  assert (OD : forall a o, old_obj c h0 a o -> done_at c h0 s3 a o).
  { intros a o Ho. destruct (Rem a o Ho) as [Hst|Un].
    - apply (done_wext c h0 start limit RD _ s2 s3 a o I2); auto. apply old_orig; auto.
    - apply (done_wext c h0 start limit RD _ _ s3 a o (inv_start c h0 start limit RD [])).
      + apply old_orig; auto.
      + eapply wext_trans; [exact X1|]. eapply wext_trans; eauto.
      + destruct (Un o (proj2 Ho)). eapply (done_start c h0 start limit RD); eauto. }
  assert (Fi : final ((C1 ++ C2) ++ C3) s3) by (split; auto).
  destruct (at_slot_final _ s3 P oP STRINGS_SLOT Fi HP Hslot) as (s4 & E4 & Fi4 & Ec & Ek & X4).
  destruct (weak_slots_ok c h0 start limit RD _ s4 (proj1 Fi4) strings Gw) as (strings' & E5 & W5).
  exists (S (length L) + S (length prot))%nat, s4, ((C1 ++ C2) ++ C3), stack', strings'. split; [|split; [|split; [|split]]]; auto.
  - intros fuel Hf. unfold major. rewrite E1. cbn [bind]. rewrite (E2 fuel) by lia. cbn [bind].
    replace start with (start + szs c h0 []) at 1 by (cbn [szs]; lia). rewrite (scan_mono c _ _ _ _ _ E3 fuel) by lia. cbn [bind].
    rewrite E4. cbn [bind]. rewrite E5. reflexivity.
  - rewrite <- !app_assoc. apply stack_ok_app. auto.
  - eapply final_keep; [exact Fi4|]. apply (wext_trans c _ s1 s4 X1 (wext_trans c _ s2 s4 X2 (wext_trans c _ s3 s4 X3 X4))).
Qed.
End Final.
