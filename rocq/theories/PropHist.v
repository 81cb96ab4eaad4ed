(** C39 and C42 over whole histories of the program and the collector. *)
From Coq Require Import ZifyBool.
From Verif Require Import Base Arr WordModel WordProofs GcModel GcSpec GcProofs GcInv GcFinal AllocModel HistSpec PropGc.

(** the part of a configuration the shape of objects depends on *)
Lemma slots_cfg c c' o : c_ivlen c' = c_ivlen c -> traced c' o = traced c o.
Proof. intros E. unfold traced. rewrite E. reflexivity. Qed.
Lemma size_cfg c c' o : c_ivlen c' = c_ivlen c -> c_ntypes c' = c_ntypes c -> type_size c' o = type_size c o.
Proof. intros E1 E2. unfold type_size. rewrite E1, E2. reflexivity. Qed.
Lemma wfobj_cfg c c' o : c_ivlen c' = c_ivlen c -> c_ntypes c' = c_ntypes c -> wfobj c o -> wfobj c' o.
Proof.
  intros E1 E2 [A B D F]. constructor; auto.
  - intros i. unfold slots. rewrite (slots_cfg c c' o E1). apply B.
  - rewrite (size_cfg c c' o E1 E2). auto.
Qed.
Lemma valid_cfg c c' h w : c_depth c' = c_depth c -> valid c h w -> valid c' h w.
Proof. intros E (n & r & H & Ch). exists n, r. rewrite E. auto. Qed.

(** the barrier, in the form the mutator maintains *)
Definition skippable (c : cfg) (o : obj) : Prop := o_vt o <> PN_TCONT /\
  forall i, In i (slots c o) -> PN_IS_PTR (word o i) = true -> c_from c (word o i) = false.
Record HI (c : cfg) (h : heap) (store : list Z) : Prop := mkHI {
  hi_sane : sane c h;
  hi_types : 24 <= c_ntypes c;
  hi_depth : (0 < c_depth c)%nat;
  hi_barrier : forall a o, old_obj c h a o -> In a store \/ skippable c o;
  hi_store : forall v, In v store -> exists o, old_obj c h v o
}.
Lemma skippable_unaffected c h a o : sane c h -> h a = Some o -> skippable c o -> unaffected c h a.
Proof.
  intros Sn Ha (N & H) o' Ho'. replace o' with o by congruence. split; auto. intros i Hi Hn. apply H; auto.
  destruct (h (word o i)) as [ow|] eqn:E; [|congruence]. apply (sa_obj c h Sn _ _ E).
Qed.
Lemma saved_only_cont o i : In i (saved_stack o) -> o_vt o = PN_TCONT.
Proof. unfold saved_stack. destruct (Z.eqb_spec (o_vt o) PN_TCONT); [auto|intros []]. Qed.

(** *** adding and changing objects *)
Lemma chain_add h a o : h a = None -> forall n w r, chain h n w r -> chain (hset h a o) n w r.
Proof.
  intros N. assert (X : forall v ov, h v = Some ov -> hset h a o v = Some ov).
  { intros v ov H. rewrite hset_other; auto. congruence. }
  induction 1; [apply ch_imm|eapply ch_obj|eapply ch_stub]; eauto.
Qed.
Lemma chain_set h a o o' : h a = Some o -> is_fwd o = false -> is_fwd o' = false ->
  forall n w r, chain h n w r -> chain (hset h a o') n w r.
Proof.
  intros Ha F F'. induction 1 as [v P|v ov P H Hf|n v ov r P H Hf Ch IH].
  - apply ch_imm. auto.
  - destruct (Z.eq_dec v a) as [->|N]; [eapply ch_obj; [auto|apply hset_same|auto]|]. eapply ch_obj; [auto|rewrite hset_other by auto; eauto|auto].
  - destruct (Z.eq_dec v a) as [->|N]; [congruence|]. eapply ch_stub; [auto|rewrite hset_other by auto; eauto|auto|auto].
Qed.
Lemma good_root_mono c h h' w : (forall n v r, chain h n v r -> chain h' n v r) ->
  (forall a, h a = None -> h' a <> None -> PN_IS_PTR a = true /\ valid c h' a) -> good_root c h w -> good_root c h' w.
Proof.
  intros Hc Ha G R. destruct (G R) as [(P & n & r & Hn & Ch)|(N & J)].
  - left. split; auto. exists n, r. auto.
  - destruct (h' w) as [o|] eqn:E; [|auto]. left. apply Ha; auto. congruence.
Qed.
Lemma HI_alloc c h store a o : HI c h store -> h a = None -> PN_IS_PTR a = true -> c_from c a = true -> c_region c a = true ->
  content c h o -> HI c (hset h a o) store.
Proof.
  intros [[So Sv Ss St] Ty Dp Ba Sr] N P F R [W Ff V Sa].
  assert (Va : forall w, valid c h w -> valid c (hset h a o) w).
  { intros w (n & r & Hn & Ch). exists n, r. split; auto. apply chain_add; auto. }
  assert (Gr : forall w, good_root c h w -> good_root c (hset h a o) w).
  { intros w. apply good_root_mono; [apply chain_add; auto|]. intros x Hx Hx'. destruct (Z.eq_dec x a) as [->|Nx]; [|rewrite hset_other in Hx' by auto; congruence].
    split; auto. exists 0%nat, a. split; auto. eapply ch_obj; [auto|apply hset_same|auto]. }
  constructor; auto.
  - constructor.
    + intros x ox Hx. destruct (Z.eq_dec x a) as [->|Nx]; [rewrite hset_same in Hx; injection Hx as <-; auto|]. rewrite hset_other in Hx by auto. auto.
    + intros x ox i Hx Hi. destruct (Z.eq_dec x a) as [->|Nx]; [rewrite hset_same in Hx; injection Hx as <-; auto|]. rewrite hset_other in Hx by auto. apply Va. eauto.
    + intros x ox i Hx Hi. destruct (Z.eq_dec x a) as [->|Nx]; [rewrite hset_same in Hx; injection Hx as <-; auto|]. rewrite hset_other in Hx by auto. apply Gr. eauto.
    + intros x ox Hx Hf. destruct (Z.eq_dec x a) as [->|Nx]; [rewrite hset_same in Hx; injection Hx as <-; congruence|]. rewrite hset_other in Hx by auto. eauto.
  - intros x ox (Fx & Hx). destruct (Z.eq_dec x a) as [->|Nx]; [congruence|]. rewrite hset_other in Hx by auto. apply Ba. split; auto.
  - intros v Hv. destruct (Sr v Hv) as (ov & Fv & Hov). exists ov. split; auto. rewrite hset_other; auto. congruence.
Qed.
Lemma update_In young store x : young x = false -> In x (gc_update young store x).
Proof.
  intros Y. unfold gc_update. rewrite Y. cbn [orb]. destruct (existsb (Z.eqb x) (firstn 3 store)) eqn:E; [|left; auto].
  apply existsb_exists in E. destruct E as (y & Hy & Exy). assert (x = y) by lia. subst y.
  rewrite <- (firstn_skipn 3 store). apply in_or_app. auto.
Qed.
Lemma update_incl young store x v : In v store -> In v (gc_update young store x).
Proof. intros H. unfold gc_update. destruct (_ || _); [auto|right; auto]. Qed.
Lemma update_inv young store x v : In v (gc_update young store x) -> In v store \/ (v = x /\ young x = false).
Proof.
  unfold gc_update. destruct (young x); cbn [orb]; auto. destruct (existsb _ _); auto. intros [<-|H]; auto.
Qed.
Lemma HI_write c h store store' a o o' : HI c h store -> h a = Some o -> is_fwd o = false -> content c h o' ->
  (forall v, In v store -> In v store') -> (forall v, In v store' -> In v store \/ (v = a /\ c_from c a = false)) ->
  (c_from c a = false -> In a store') -> HI c (hset h a o') store'.
Proof.
  intros [[So Sv Ss St] Ty Dp Ba Sr] Ha Fo [W Ff V Sa] I1 I2 I3.
  pose proof (chain_set h a o o' Ha Fo Ff) as Cs.
  assert (Va : forall w, valid c h w -> valid c (hset h a o') w) by (intros w (n & r & Hn & Ch); exists n, r; auto).
  assert (Gr : forall w, good_root c h w -> good_root c (hset h a o') w).
  { intros w. apply good_root_mono; auto. intros x Hx Hx'. destruct (Z.eq_dec x a) as [->|Nx]; [congruence|]. rewrite hset_other in Hx' by auto. congruence. }
  destruct (So a o Ha) as (Pa & Ra & _).
  constructor; auto.
  - constructor.
    + intros x ox Hx. destruct (Z.eq_dec x a) as [->|Nx]; [rewrite hset_same in Hx; injection Hx as <-; auto|]. rewrite hset_other in Hx by auto. auto.
    + intros x ox i Hx Hi. destruct (Z.eq_dec x a) as [->|Nx]; [rewrite hset_same in Hx; injection Hx as <-; auto|]. rewrite hset_other in Hx by auto. apply Va. eauto.
    + intros x ox i Hx Hi. destruct (Z.eq_dec x a) as [->|Nx]; [rewrite hset_same in Hx; injection Hx as <-; auto|]. rewrite hset_other in Hx by auto. apply Gr. eauto.
    + intros x ox Hx Hf. destruct (Z.eq_dec x a) as [->|Nx]; [rewrite hset_same in Hx; injection Hx as <-; congruence|]. rewrite hset_other in Hx by auto. eauto.
  - intros x ox (Fx & Hx). destruct (Z.eq_dec x a) as [->|Nx]; [auto|]. rewrite hset_other in Hx by auto.
    destruct (Ba x ox) as [|]; [split; auto| |]; auto.
  - intros v Hv. destruct (Z.eq_dec v a) as [->|N].
    + exists o'. split; [|apply hset_same]. destruct (I2 a Hv) as [H|(_ & H)]; auto. destruct (Sr a H) as (ov & F & _). auto.
    + destruct (I2 v Hv) as [H|(H & _)]; [|contradiction]. destruct (Sr v H) as (ov & F & Hv'). exists ov. split; auto. rewrite hset_other; auto.
Qed.
Lemma HI_grow c h store a o dst n stub : HI c h store -> h a = Some o -> is_fwd o = false -> content c h n ->
    h dst = None -> PN_IS_PTR dst = true -> c_from c dst = true -> c_region c dst = true ->
    is_fwd stub = true -> word stub 1 = dst -> wfobj c stub ->
    (forall w k r, chain h k w r -> (k < c_depth c)%nat -> (S k < c_depth c)%nat) ->
    HI c (hset (hset h dst n) a stub) (gc_update (c_from c) store a).
Proof.
  intros H Ha Fo Ct Hd Pd Fd Rd Fs Ws Wst Dp'. pose proof (HI_alloc c h store dst n H Hd Pd Fd Rd Ct) as [[So Sv Ss St] Ty Dp Ba Sr].
  destruct Ct as [Wn Fn _ _].
  assert (N : a <> dst) by congruence. set (h1 := hset h dst n) in *. set (h2 := hset h1 a stub).
  assert (Ha1 : h1 a = Some o) by (unfold h1; rewrite hset_other; auto).
  destruct (So a o Ha1) as (Pa & Ra & _).
  (* chains of h1 that use no young-object-as-start but existed in h get one longer at most *)
  assert (Cs : forall k w r, chain h1 k w r -> exists k' r', (k' <= S k)%nat /\ chain h2 k' w r' /\ (k' = S k -> r = a)).
  { induction 1 as [v P|v ov P Hv Hf|k v ov r P Hv Hf Ch (k' & r' & L & C2 & X)].
    - exists 0%nat, v. split; [lia|]. split; [apply ch_imm; auto|lia].
    - destruct (Z.eq_dec v a) as [->|Nv].
      + exists 1%nat, dst. split; [lia|]. split; auto. eapply ch_stub; [auto|apply hset_same|auto|]. rewrite Ws.
        eapply ch_obj; [auto| |exact Fn]. unfold h2. rewrite hset_other by auto. unfold h1. apply hset_same.
      + exists 0%nat, v. split; [lia|]. split; [|lia]. eapply ch_obj; [auto|unfold h2; rewrite hset_other by auto; eauto|auto].
    - destruct (Z.eq_dec v a) as [->|Nv]; [congruence|]. exists (S k'), r'. split; [lia|]. split; [|intros; apply X; lia].
      eapply ch_stub; [auto|unfold h2; rewrite hset_other by auto; eauto|auto|auto]. }
  assert (D2 : (1 < c_depth c)%nat). { apply (Dp' 1 0%nat 1); [apply ch_imm; reflexivity|auto]. }
  assert (Va : forall w, valid c h1 w -> (forall k r, chain h1 k w r -> r = a -> chain h k w r) -> valid c h2 w).
  { intros w (k & r & Hk & Ch) Old. destruct (Cs k w r Ch) as (k' & r' & L & C2 & X). exists k', r'. split; auto.
    destruct (Nat.eq_dec k' (S k)) as [->|]; [|lia]. specialize (X eq_refl). apply (Dp' w k r); auto. }
  (* a chain to a does not pass through dst *)
  assert (Old : forall k w r, chain h1 k w r -> r = a -> chain h k w r).
  { induction 1 as [v P|v ov P Hv Hf|k v ov r P Hv Hf Ch IH]; intros E.
    - subst v. congruence.
    - subst v. eapply ch_obj; eauto.
    - destruct (Z.eq_dec v dst) as [->|Nv]; [unfold h1 in Hv; rewrite hset_same in Hv; injection Hv as <-; congruence|].
      unfold h1 in Hv. rewrite hset_other in Hv by auto. eapply ch_stub; eauto. }
  assert (Va' : forall w, valid c h1 w -> valid c h2 w) by (intros w Hw; apply Va; auto).
  assert (Gr : forall w, good_root c h1 w -> good_root c h2 w).
  { intros w G R. destruct (G R) as [(P & V)|(Nw & J)]; [left; auto|]. right. split; auto. unfold h2. rewrite hset_other; auto. congruence. }
  constructor; auto.
  - constructor.
    + intros x ox Hx. unfold h2 in Hx. destruct (Z.eq_dec x a) as [->|Nx]; [rewrite hset_same in Hx; injection Hx as <-; auto|]. rewrite hset_other in Hx by auto. auto.
    + intros x ox i Hx Hi. unfold h2 in Hx. destruct (Z.eq_dec x a) as [->|Nx].
      * rewrite hset_same in Hx. injection Hx as <-. unfold traced in Hi. rewrite Fs, orb_true_r in Hi. destruct Hi as [<-|[]]. rewrite Ws.
        exists 0%nat, dst. split; auto. eapply ch_obj; [auto| |exact Fn]. unfold h2. rewrite hset_other by auto. unfold h1. apply hset_same.
      * rewrite hset_other in Hx by auto. apply Va'. eauto.
    + intros x ox i Hx Hi. unfold h2 in Hx. destruct (Z.eq_dec x a) as [->|Nx].
      * rewrite hset_same in Hx. injection Hx as <-. apply saved_only_cont in Hi. unfold is_fwd in Fs. rewrite Hi in Fs. discriminate.
      * rewrite hset_other in Hx by auto. apply Gr. eauto.
    + intros x ox Hx Hf. unfold h2 in Hx. destruct (Z.eq_dec x a) as [->|Nx]; [rewrite hset_same in Hx; injection Hx as <-; rewrite Ws; auto|].
      rewrite hset_other in Hx by auto. eauto.
  - intros x ox (Fx & Hx). unfold h2 in Hx. destruct (Z.eq_dec x a) as [->|Nx]; [left; apply update_In; auto|]. rewrite hset_other in Hx by auto.
    destruct (Ba x ox) as [|]; [split; auto| |]; auto. left. apply update_incl. auto.
  - intros v Hv. unfold h2. destruct (Z.eq_dec v a) as [->|Nv].
    + exists stub. split; [|apply hset_same]. destruct (update_inv _ _ _ _ Hv) as [Hv'|(_ & ?)]; auto. destruct (Sr a Hv') as (ov & F & _). auto.
    + destruct (update_inv _ _ _ _ Hv) as [Hv'|(? & _)]; [|contradiction]. destruct (Sr v Hv') as (ov & F & Hov). exists ov. split; auto. rewrite hset_other; auto.
Qed.

(** *** collections *)
Lemma HI_minor_pre c h store start limit P stack strings : HI c h store -> to_space c h start limit -> roots c h P stack strings ->
  minor_pre c h start limit P stack store strings.
Proof.
  intros [Sn Ty Dp Ba Sr] [T1 T2 T3] [R1 R2 R3]. pose proof Sn as [So Sv Ss St]. constructor; auto.
  - constructor; auto.
  - intros a o Ho. destruct (Ba a o Ho); auto. right. eapply skippable_unaffected; eauto. apply Ho.
Qed.
Lemma HI_collected c c' h start limit C s keep (RD : ready c h start limit) :
  final c h start limit C s -> keep_ok (release c (g_heap s)) keep -> next_cfg c c' (release c (g_heap s)) ->
  24 <= c_ntypes c -> (0 < c_depth c)%nat -> HI c' (release c (g_heap s)) keep.
Proof.
  intros Fi (K1 & K2) [E1 E2 E3 N1 N2 N3] Ty Dp. set (h' := release c (g_heap s)) in *.
  pose proof (final_whole c h start limit RD C s Fi) as Wh. fold h' in Wh.
  assert (So : forall a o, h' a = Some o -> PN_IS_PTR a = true /\ wfobj c o /\ (is_fwd o = true -> PN_IS_PTR (word o 1) = true)).
  { intros a o Ha. apply (final_wf c h start limit RD C s Fi a o Ha). }
  assert (Sv : forall a o i, h' a = Some o -> In i (traced c' o) -> valid c' h' (word o i)).
  { intros a o i Ha Hi. rewrite (slots_cfg c c' o E1) in Hi. apply (valid_cfg c c' h' _ E3). apply (Wh a o Ha). auto. }
  constructor.
  - constructor; auto.
    + intros a o Ha. destruct (So a o Ha) as (A & B & _). split; auto. split; [eapply N1; eauto|]. apply (wfobj_cfg c c'); auto.
    + intros a o Ha Hf. destruct (So a o Ha) as (A & B & D). split; auto. intros F. rewrite (N2 a o Ha) in F. discriminate.
  - lia.
  - lia.
  - intros a o (F & Ha). destruct (Z.eq_dec (o_vt o) PN_TCONT) as [V|V]; [left; eapply K1; eauto|]. right. split; auto.
    intros i Hi Pi. apply in_app_or in Hi. destruct Hi as [Hi|Hi]; [|apply saved_only_cont in Hi; contradiction].
    destruct (Sv a o i Ha Hi) as (n & r & _ & Ch). inversion Ch; subst; try congruence; eapply N2; eauto.
  - intros v Hv. specialize (K2 v Hv). destruct (h' v) as [o|] eqn:E; [|congruence]. exists o. split; auto. eapply N2; eauto.
Qed.
Lemma major_mono c f P h cur stack wk lo hi strings r : major c f P h cur stack wk lo hi strings = Ok r ->
  forall f', (f <= f')%nat -> major c f' P h cur stack wk lo hi strings = Ok r.
Proof.
  intros H f' L. unfold major in *. destruct (mark_array c _ stack) as [[s1 st]| |]; try discriminate. cbn [bind] in *.
  destruct wk.
  - destruct (scan c f s1 lo (fun _ => hi)) as [s2| |] eqn:E2; try discriminate. rewrite (scan_mono c _ _ _ _ _ E2 f' L). cbn [bind] in *.
    destruct (scan c f s2 cur g_cur) as [s3| |] eqn:E3; try discriminate. rewrite (scan_mono c _ _ _ _ _ E3 f' L). exact H.
  - cbn [bind] in *. destruct (scan c f s1 cur g_cur) as [s3| |] eqn:E3; try discriminate. rewrite (scan_mono c _ _ _ _ _ E3 f' L). exact H.
Qed.
Lemma history_HI c h store : history c h store -> HI c h store.
Proof.
  induction 1 as [c h Sn Ty Dp Old|c h store a o H IH N P F R Ct|c h store a o o' H IH Ha Ff Ct|c h store a o o' H IH Ha Ff Ct Fa
    |c h store a o dst n stub H IH Ha Ff Ct Hd Pd Fd Rd Fs Ws Wst Dp|c h store start limit P stack strings fuel r c' H IH Ts Rt M Nx
    |c h store cM start limit P stack wk lo hi prot strings fuel r c' H IH E1 E2 E3 E4 E5 Es Ts Rt Wk Pr M Nx].
  - constructor; auto; [|intros v []]. intros a o (F & Ha). right. destruct (Old a o Ha) as (_ & V). split; auto.
    intros i Hi Pi. apply in_app_or in Hi. destruct Hi as [Hi|Hi]; [|apply saved_only_cont in Hi; contradiction].
    destruct (sa_val c h Sn a o i Ha Hi) as (n & r & _ & Ch). inversion Ch; subst; try congruence; eapply Old; eauto.
  - apply HI_alloc; auto.
  - eapply HI_write; eauto; [intros; apply update_incl; auto|intros v Hv; apply (update_inv _ _ _ _ Hv)|apply update_In].
  - eapply HI_write; eauto. congruence.
  - eapply HI_grow; eauto.
  - pose proof (HI_minor_pre c h store start limit P stack strings IH Ts Rt) as [RD (oP & HP & VP) Gs Gst Rem Gw].
    destruct (minor_ok c h start limit RD P oP stack store strings HP VP Gs Gst Rem Gw) as (N & s & C & C1 & st' & sg' & T & Fi & _ & _ & _ & Kp).
    pose proof (minor_mono _ _ _ _ _ _ _ _ _ M (N + fuel)%nat ltac:(lia)) as Mono. rewrite T in Mono by lia. injection Mono as <-.
    cbn [r_heap r_keep] in *. destruct IH. eapply HI_collected; eauto.
  - destruct IH as [[So Sv Ss St] Ty Dp Ba Sr]. destruct Ts as [T1 T2 T3]. destruct Rt as [(oP & HP & VP) R2 R3].
    assert (RD : ready cM h start limit).
    { constructor; auto; try congruence.
      - intros a o Ha. destruct (So a o Ha) as (A & B & D). rewrite E4. split; auto. split; auto. apply (wfobj_cfg c cM); auto.
      - intros a o i Ha Hi. rewrite (slots_cfg c cM o E1) in Hi. apply (valid_cfg c cM); eauto.
      - intros a o i Ha Hi Rg. rewrite E4 in Rg. destruct (Ss a o i Ha Hi Rg) as [(P1 & V)|(A & B)]; [left; split; auto; apply (valid_cfg c cM); auto|right; rewrite E5; auto].
      - intros a o Ha Hf. destruct (St a o Ha Hf). split; eauto.
      }
    destruct (major_ok cM h start limit RD P oP stack wk lo hi prot strings HP VP R2 Wk Pr R3) as (N & s & C & st' & sg' & T & Fi & _ & _ & Kp).
    pose proof (major_mono _ _ _ _ _ _ _ _ _ _ _ M (N + fuel)%nat ltac:(lia)) as Mono. rewrite T in Mono by lia. injection Mono as <-.
    cbn [r_heap r_keep] in *. eapply HI_collected; eauto; try congruence; try lia.
    destruct Nx. constructor; auto; try congruence.
Qed.

(** ** C42: in every history, every old object that refers to an object of the nursery is
    on the store list; and the list only names old objects *)
Theorem C42_old_objects_with_young_references_are_listed :
  forall c h store, history c h store ->
  (forall a o i v, old_obj c h a o -> In i (slots c o) -> h (word o i) = Some v -> c_from c (word o i) = true -> In a store) /\
  (forall v, In v store -> exists o, old_obj c h v o).
Proof.
  intros c h store H. apply history_HI in H. destruct H as [Sn _ _ Ba Sr]. split; auto.
  intros a o i v Ho Hi Hv F. destruct (Ba a o Ho) as [|(_ & Sk)]; auto. rewrite Sk in F; auto; [discriminate|].
  apply (sa_obj c h Sn _ _ Hv).
Qed.
(** ** C39: in every history, whenever there is room and the roots are sound, a minor
    collection runs to its end and preserves what is reachable *)
Theorem C39_collections_succeed_in_every_history :
  forall c h store start limit P stack strings, history c h store -> to_space c h start limit -> roots c h P stack strings ->
  exists r img, terminates (fun fuel => minor c fuel P h start stack store strings) (Ok r) /\
    preserved c h (r_heap r) stack (r_stack r) img /\ whole c (r_heap r) /\
    (forall c', next_cfg c c' (r_heap r) -> history c' (r_heap r) (r_keep r)).
Proof.
  intros c h store start limit P stack strings H Ts Rt. pose proof (HI_minor_pre _ _ _ _ _ _ _ _ (history_HI _ _ _ H) Ts Rt) as Pre.
  destruct (C39_minor_collection_preserves_the_reachable_graph _ _ _ _ _ _ _ _ Pre) as (r & img & (N & T) & Pv & _ & _ & _ & Wh).
  exists r, img. split; [exists N; auto|]. split; auto. split; auto. intros c' Nx. eapply hi_minor; eauto.
Qed.

(** *** A concrete history: an old tuple (at 5120) gets a reference to a new string *)
Definition hx_tuple (w : Z) : obj := mkObj 24 [hd PN_TTUPLE 9; pair32 1 1; w].
Definition hx_h : heap := fun a => if a =? 4096 then Some ex_state else if a =? 5120 then Some (hx_tuple 3) else None.
Lemma hx_cases a o : hx_h a = Some o -> (a = 4096 /\ o = ex_state) \/ (a = 5120 /\ o = hx_tuple 3).
Proof.
  unfold hx_h. destruct (Z.eqb_spec a 4096); [intros [= <-]; auto|]. destruct (Z.eqb_spec a 5120); [intros [= <-]; auto|]. discriminate.
Qed.
Lemma ex_state_wf : wfobj ex_c ex_state.
Proof. apply (g_obj ex_ready 4096). reflexivity. Qed.
Lemma hx_slots w i : In i (slots ex_c (hx_tuple w)) -> i = 2.
Proof. intros H. vm_compute in H. intuition lia. Qed.
Lemma hx_tuple_wf w : wfobj ex_c (hx_tuple w).
Proof.
  constructor; [vm_compute; discriminate| |reflexivity|intros _; vm_compute; split; [split; discriminate|auto]].
  intros i Hi. apply hx_slots in Hi. change (zlen _) with 3. lia.
Qed.
Lemma hx_sane : sane ex_c hx_h.
Proof.
  constructor.
  - intros a o H. destruct (hx_cases a o H) as [(-> & ->)|(-> & ->)]; (split; [reflexivity|]); (split; [reflexivity|]); [apply ex_state_wf|apply hx_tuple_wf].
  - intros a o i H Hi. assert (Hs : In i (slots ex_c o)) by (apply in_or_app; auto).
    destruct (hx_cases a o H) as [(-> & ->)|(-> & ->)].
    + destruct (ex_slots_state i Hs) as (_ & ->). exists 0%nat, 0. split; [cbn; lia|]. apply ch_imm. reflexivity.
    + rewrite (hx_slots 3 i Hs). exists 0%nat, 3. split; [cbn; lia|]. apply ch_imm. reflexivity.
  - intros a o i H Hi. destruct (hx_cases a o H) as [(-> & ->)|(-> & ->)]; vm_compute in Hi; destruct Hi.
  - intros a o H. destruct (hx_cases a o H) as [(-> & ->)|(-> & ->)]; discriminate.
Qed.
Definition hx_h1 : heap := hset hx_h 8208 ex_string.
Definition hx_h2 : heap := hset hx_h1 5120 (hx_tuple 8208).
Lemma hx_start : history ex_c hx_h [].
Proof.
  apply hi_start; [apply hx_sane|cbn; lia|cbn; lia|]. intros a o H.
  destruct (hx_cases a o H) as [(-> & ->)|(-> & ->)]; split; try reflexivity; discriminate.
Qed.
Lemma ex_string_content h : content ex_c h ex_string.
Proof.
  constructor; [apply (g_obj ex_ready 8208); reflexivity|reflexivity| |]; intros i Hi; vm_compute in Hi; destruct Hi.
Qed.
Lemma hx_content h : h 8208 = Some ex_string -> content ex_c h (hx_tuple 8208).
Proof.
  intros H. constructor; [apply hx_tuple_wf|reflexivity| |].
  - intros i Hi. assert (Hs : In i (slots ex_c (hx_tuple 8208))) by (apply in_or_app; auto). rewrite (hx_slots _ i Hs).
    exists 0%nat, 8208. split; [cbn; lia|]. eapply ch_obj; [reflexivity|exact H|reflexivity].
  - intros i Hi. vm_compute in Hi. destruct Hi.
Qed.
Example C42_example : history ex_c hx_h2 [5120].
Proof.
  change [5120] with (gc_update (c_from ex_c) [] 5120). eapply hi_write.
  - apply hi_alloc; [apply hx_start|reflexivity|reflexivity|reflexivity|reflexivity|apply ex_string_content].
  - reflexivity.
  - reflexivity.
  - apply hx_content. reflexivity.
Qed.
Lemma hx2_cases a o : hx_h2 a = Some o -> (a = 4096 /\ o = ex_state) \/ (a = 5120 /\ o = hx_tuple 8208) \/ (a = 8208 /\ o = ex_string).
Proof.
  unfold hx_h2, hx_h1, hset. destruct (Z.eqb_spec a 5120); [intros [= <-]; auto|]. destruct (Z.eqb_spec a 8208); [intros [= <-]; auto|].
  intros H. destruct (hx_cases a o H) as [|(? & _)]; [auto|congruence].
Qed.
Example C39_history_example : to_space ex_c hx_h2 65536 131072 /\ roots ex_c hx_h2 4096 [5120] [Some 8208].
Proof.
  split; constructor.
  - intros b Hb. split; [|cbn; unfold ex_from; lia].
    destruct (hx_h2 b) as [o|] eqn:H; [|auto]. destruct (hx2_cases b o H) as [(-> & _)|[(-> & _)|(-> & _)]]; lia.
  - lia.
  - exists [8208]. split; [repeat constructor; auto|]. split; [|vm_compute; discriminate].
    intros a o F H _. destruct (hx2_cases a o H) as [(-> & _)|[(-> & _)|(-> & _)]]; try discriminate. left. auto.
  - exists ex_state. split; [split; reflexivity|reflexivity].
  - intros w [<-|[]] _. left. split; [reflexivity|]. exists 0%nat, 5120. split; [cbn; lia|]. eapply ch_obj; reflexivity.
  - intros v [[= <-]|[]] _. discriminate.
Qed.

(** ** The mutator does not always announce the object it writes (C58) *)
(** an old stub (at 6144) of an old tuple (at 5120): what is left of a tuple that grew
    before the last collection, for those who still refer to its first place *)
Definition st_stub : obj := mkObj 16 [POTION_FWD + 16 * 4294967296; 5120].
Definition st_h : heap := hset hx_h 6144 st_stub.
Lemma st_stub_wf : wfobj ex_c st_stub.
Proof.
  constructor; [vm_compute; discriminate| |reflexivity|discriminate].
  intros i Hi. vm_compute in Hi. change (zlen _) with 2. intuition lia.
Qed.
Lemma chain_hx n w r : chain hx_h n w r -> chain st_h n w r.
Proof. apply chain_add. reflexivity. Qed.
Lemma st_start : history ex_c st_h [].
Proof.
  assert (Cs : forall a o, st_h a = Some o -> (a = 6144 /\ o = st_stub) \/ hx_h a = Some o).
  { intros a o. unfold st_h, hset. destruct (Z.eqb_spec a 6144); [intros [= <-]; auto|auto]. }
  destruct hx_sane as [S1 S2 S3 S4].
  assert (V : valid ex_c st_h 5120).
  { exists 0%nat, 5120. split; [cbn; lia|]. eapply ch_obj; reflexivity. }
  apply hi_start; [|cbn; lia|cbn; lia|].
  - constructor.
    + intros a o H. destruct (Cs a o H) as [(-> & ->)|H']; [|auto]. split; [reflexivity|]. split; [reflexivity|]. apply st_stub_wf.
    + intros a o i H Hi. destruct (Cs a o H) as [(-> & ->)|H'].
      * vm_compute in Hi. destruct Hi as [<-|[]]. exact V.
      * destruct (S2 a o i H' Hi) as (n & r & Hn & Ch). exists n, r. split; auto. apply chain_hx. auto.
    + intros a o i H Hi. destruct (Cs a o H) as [(-> & ->)|H']; [vm_compute in Hi; destruct Hi|].
      destruct (hx_cases a o H') as [(-> & ->)|(-> & ->)]; vm_compute in Hi; destruct Hi.
    + intros a o H Hf. destruct (Cs a o H) as [(-> & ->)|H']; [split; [reflexivity|discriminate]|eauto].
  - intros a o H. destruct (Cs a o H) as [(-> & ->)|H']; [split; [reflexivity|discriminate]|].
    destruct (hx_cases a o H') as [(-> & ->)|(-> & ->)]; split; try reflexivity; discriminate.
Qed.
Definition st_h1 : heap := hset st_h 8208 ex_string.
Lemma st_hist : history ex_c st_h1 [].
Proof. apply hi_alloc; [apply st_start|reflexivity|reflexivity|reflexivity|reflexivity|apply ex_string_content]. Qed.
(** storing the new string through the stub: the tuple is not listed, and the minor
    collection leaves a dangling reference in it *)
Theorem C58_put_announces_the_stub_refuted :
  ~ (forall c h store self i value h' store', history c h store -> valid c h self -> valid c h value ->
     tuple_put_barrier c h store self i value = Ok (h', store') ->
     forall a o j v, old_obj c h' a o -> In j (slots c o) -> h' (word o j) = Some v -> c_from c (word o j) = true -> In a store').
Proof.
  intros H. set (h' := hset st_h1 5120 (hx_tuple 8208)).
  assert (X : In 5120 [6144]).
  { apply (H ex_c st_h1 [] 6144 0 8208 h' [6144] st_hist) with (o := hx_tuple 8208) (j := 2) (v := ex_string); try reflexivity.
    - exists 1%nat, 5120. split; [cbn; lia|]. eapply ch_stub; try reflexivity. eapply ch_obj; reflexivity.
    - exists 0%nat, 8208. split; [cbn; lia|]. eapply ch_obj; reflexivity.
    - split; reflexivity.
    - vm_compute. auto. }
  destruct X as [X|[]]. discriminate.
Qed.
Theorem C58_put_through_a_stub_dangles_refuted :
  exists h' store' r, tuple_put_barrier ex_c st_h1 [] 6144 0 8208 = Ok (h', store') /\
    minor ex_c 10 4096 h' 65536 [5120] store' [] = Ok r /\
    option_map (fun o => word o 2) (r_heap r 5120) = Some 8208 /\ r_heap r 8208 = None.
Proof.
  do 3 eexists. split; [reflexivity|]. split; [reflexivity|]. split; vm_compute; reflexivity.
Qed.
(** through the tuple itself it is announced *)
Theorem C58_put_on_the_tuple_itself :
  forall c h store self o i value h' store', history c h store -> PN_IS_PTR self = true -> h self = Some o -> is_fwd o = false -> valid c h value ->
  o_vt o = PN_TTUPLE -> 0 <= i < lo32 (word o 1) ->
  tuple_put_barrier c h store self i value = Ok (h', store') -> history c h' store'.
Proof.
  intros c h store self o i value h' store' H P Ho Hf V Vt Hi E. pose proof (history_HI _ _ _ H) as [Sn Ty Dp _ _].
  destruct (sa_obj c h Sn self o Ho) as (_ & _ & W).
  assert (Hs : forall o1, o_vt o1 = PN_TTUPLE -> traced c o1 = zseq 2 (Z.to_nat (lo32 (word o1 1))) /\ saved_stack o1 = []).
  { intros o1 V1. unfold traced, saved_stack, is_copied, is_fwd. rewrite V1. split; reflexivity. }
  destruct (Hs o Vt) as (Ht & Hsv).
  assert (In2 : In (2 + i) (slots c o)) by (unfold slots; rewrite Ht; apply in_or_app; left; apply In_zseq; lia).
  pose proof (w_slots c o W _ In2) as Rg.
  unfold tuple_put_barrier in E. rewrite (chain_fwd h 0 self self) in E; [|eapply ch_obj; eauto|lia]. cbn [bind] in E.
  rewrite Ho, wr_ok in E by lia. cbn [bind] in E. injection E as <- <-. set (o' := mkObj _ _).
  assert (Wd : forall j, 0 <= j -> word o' j = if j =? 2 + i then value else word o j).
  { intros j Hj. unfold word, o'. cbn [o_words]. destruct (Z.eqb_spec j (2 + i)) as [->|N]; [apply znth_upd_same; lia|].
    apply znth_upd_other; lia. }
  destruct (shape_stable c o o') as (V' & T' & S' & Z').
  { intros j Hj. pose proof (w_slots c o W j Hj). lia. }
  { intros j Hj Nj. rewrite Wd by lia. destruct (Z.eqb_spec j (2 + i)) as [->|N]; [contradiction|auto]. }
  assert (Ln : zlen (o_words o') = zlen (o_words o)) by (unfold o'; cbn [o_words]; apply zlen_upd; lia).
  eapply hi_write; eauto. constructor.
  - constructor.
    + rewrite Ln. apply W.
    + intros j. unfold slots. rewrite T', S', Ln. apply (w_slots c o W).
    + unfold is_copied. rewrite V'. apply W.
    + intros _. rewrite Z'. destruct (w_size c o W Hf) as (A & B & D). split; [|split]; auto. unfold kept in *. rewrite V', Ln. auto.
  - unfold is_fwd. rewrite V'. exact Hf.
  - intros j Hj. rewrite T' in Hj. assert (Hj2 : In j (slots c o)) by (apply in_or_app; auto). pose proof (w_slots c o W j Hj2).
    rewrite Wd by lia. destruct (j =? 2 + i); auto. apply (sa_val c h Sn self o j Ho). auto.
  - intros j Hj. rewrite S', Hsv in Hj. destruct Hj.
Qed.
(** Exactly: a store through any reference writes the tuple it leads to and lists the
    object it was given; so afterwards every old object that refers to the nursery is
    listed, except possibly the tuple itself. *)
Definition refers_young (c : cfg) (h : heap) (o : obj) : Prop :=
  exists j v, In j (slots c o) /\ h (word o j) = Some v /\ c_from c (word o j) = true.
Definition all_listed (c : cfg) (h : heap) (store : list Z) : Prop :=
  forall a o, old_obj c h a o -> refers_young c h o -> In a store.
Theorem C58_put_lists_the_object_it_is_given :
  forall c h store self n t o i value, history c h store -> chain h n self t -> (n < c_depth c)%nat -> h t = Some o ->
  o_vt o = PN_TTUPLE -> 0 <= i < lo32 (word o 1) ->
  exists o', tuple_put_barrier c h store self i value = Ok (hset h t o', gc_update (c_from c) store self) /\
    (forall j, 0 <= j -> word o' j = if j =? 2 + i then value else word o j) /\
    (all_listed c (hset h t o') (gc_update (c_from c) store self) <->
     (c_from c t = false -> refers_young c (hset h t o') o' -> t = self \/ In t store)).
Proof.
  intros c h store self n t o i value H Ch Dn Ho Vt Hi. pose proof (history_HI _ _ _ H) as [Sn Ty Dp _ _].
  destruct (sa_obj c h Sn t o Ho) as (_ & _ & W).
  assert (Ht : traced c o = zseq 2 (Z.to_nat (lo32 (word o 1)))) by (unfold traced, is_copied, is_fwd; rewrite Vt; reflexivity).
  assert (In2 : In (2 + i) (slots c o)) by (unfold slots; rewrite Ht; apply in_or_app; left; apply In_zseq; lia).
  pose proof (w_slots c o W _ In2) as Rg.
  unfold tuple_put_barrier. rewrite (chain_fwd h n self t Ch) by exact Dn. cbn [bind]. rewrite Ho, wr_ok by lia. cbn [bind].
  eexists. split; [reflexivity|]. set (o' := mkObj _ _). split.
  { intros j Hj. unfold word, o'. cbn [o_words]. destruct (Z.eqb_spec j (2 + i)) as [->|N]; [apply znth_upd_same; lia|].
    apply znth_upd_other; lia. }
  assert (UP : forall a, In a store -> In a (gc_update (c_from c) store self)).
  { intros a A. unfold gc_update. destruct (_ || _); [exact A|right; exact A]. }
  split.
  - intros A F R. specialize (A t o'). assert (I' : In t (gc_update (c_from c) store self)).
    { apply A; [|exact R]. split; [exact F|]. unfold hset. rewrite Z.eqb_refl. reflexivity. }
    unfold gc_update in I'. destruct (_ || _); [auto|]. destruct I' as [->|]; auto.
  - intros A a oa [F Ha] R. unfold hset in Ha. destruct (Z.eqb_spec a t) as [->|N].
    + injection Ha as <-. destruct (A F R) as [->|I']; [|auto]. unfold gc_update. rewrite F. cbn [orb].
      destruct (existsb (Z.eqb self) (firstn 3 store)) eqn:Q; [|left; reflexivity].
      apply existsb_exists in Q. destruct Q as (x & X & Y). assert (x = self) by lia. subst x.
      rewrite <- (firstn_skipn 3 store). apply in_or_app. left. exact X.
    + destruct R as (j & v & J & V & Y). apply UP. apply (proj1 (C42_old_objects_with_young_references_are_listed c h store H) a oa j (match h (word oa j) with Some x => x | None => v end));
        [split; assumption|exact J| |exact Y].
      unfold hset in V. destruct (Z.eqb_spec (word oa j) t) as [->|]; [rewrite Ho; reflexivity|rewrite V; reflexivity].
Qed.
