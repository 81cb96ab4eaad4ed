(** The structural compiler produces [gen]: the induction. *)
From Verif Require Import Base Arr GArr WordModel AsmModel CompileModel VmModel SrcSpec CompileProofs CompileEq CompileExt CodeGen GenLem Capt GenOk.
From Coq Require Import ZifyBool.
Ltac Zify.zify_post_hook ::= Z.div_mod_to_equations.

Section G.
Context (chr0 : Z -> Z) (tbl : list pb).
Local Notation upper := (isupper chr0).

Definition good enc L n (c : cst) : Prop := sc enc L c /\ zlen (c_tbl c) = n /\ lok c /\ linked c.
Lemma good_reg enc L n r c : good enc L n c -> good enc L n (PN_REG r c).
Proof. intros (A & B & C & D). split; [eapply sc_eq; [apply skel_reg|exact A]|]. split; [exact B|]. split; [apply lok_reg; exact C|eapply linked_eq; [apply skel_reg|exact D]]. Qed.
Lemma good_asm2 enc L n o a b c : good enc L n c -> good enc L n (asm2 o a b c).
Proof. intros (A & B & C & D). split; [exact A|]. split; [exact B|]. split; [apply lok_asm2; exact C|exact D]. Qed.
Lemma good_asm1 enc L n o a c : good enc L n c -> good enc L n (asm1 o a c).
Proof. apply good_asm2. Qed.
Lemma good_path enc L n v c : good enc L n c -> good enc L n (put_path v c).
Proof. intros (A & B & C & D). split; [exact A|]. split; [exact B|]. split; [exact C|exact D]. Qed.
Lemma good_value enc L n v c : good enc L n c -> good enc L n (fst (put_value v c)).
Proof. intros (A & B & C & D). split; [eapply sc_eq; [apply skel_value|exact A]|]. split; [rewrite tbl_value; exact B|]. split; [apply lok_value; exact C|eapply linked_eq; [apply skel_value|exact D]]. Qed.
Lemma good_load enc L n v r c : good enc L n c -> good enc L n (load_value v r c).
Proof. intros (A & B & C & D). split; [eapply sc_eq; [apply skel_load|exact A]|]. split; [rewrite tbl_load; exact B|]. split; [apply lok_load; exact C|eapply linked_eq; [apply skel_load|exact D]]. Qed.
Lemma good_loadname enc L n v r c : good enc L n c -> good enc L n (loadname v r c).
Proof. intros (A & B & C & D). split; [eapply sc_eq; [apply skel_loadname|exact A]|]. split; [rewrite tbl_loadname; exact B|]. split; [apply lok_loadname; exact C|eapply linked_eq; [apply skel_loadname|exact D]]. Qed.
Lemma good_decl enc L n x c : good enc L n c -> memb x L || negb (owned enc x) = true -> good enc (add x L) n (decl x c).
Proof. intros (A & B & C & D) K. split; [apply decl_sc; assumption|]. split; [rewrite tbl_decl; exact B|]. split; [apply lok_decl; exact C|apply linked_decl; exact D]. Qed.
Lemma good_useup enc L n x c : good enc L n c -> memb x L = false -> owned enc x = true -> good enc L n (useup x c).
Proof. intros (A & B & C & D) K O. split; [apply useup_sc; assumption|]. split; [rewrite tbl_useup; exact B|]. split; [apply lok_useup; exact C|apply linked_useup; exact D]. Qed.
Lemma good_pb enc L n j v c : good enc L n c -> fr j c -> good enc L n (patch_b j v c).
Proof. intros (A & B & C & D) K. split; [exact A|]. split; [exact B|]. split; [apply lok_pb; assumption|exact D]. Qed.
Lemma good_newloop enc L n c : good enc L n c -> good enc L n (set_loop (Some ([], [])) c).
Proof.
  intros (A & B & C & D). split; [exact A|]. split; [exact B|]. split; [|exact D].
  intros i [K|K]; discriminate.
Qed.
Lemma good_exp enc lp L L' n n' e r c : wf upper enc lp L e = Some L' -> lab n e = Some n' -> good enc L n c -> good enc L' n' (cexp e r c).
Proof.
  intros W K (A & B & C & D). split; [eapply (cexp_sc chr0); eassumption|]. split; [eapply (cexp_tbl (fun _ => false)); eassumption|].
  split; [apply cexp_lok; assumption|apply cexp_linked; assumption].
Qed.
Lemma good_exps enc lp L L' n n' e r c : wf_all upper enc lp L e = Some L' -> lab_all n e = Some n' -> good enc L n c -> good enc L' n' (cexps e r c).
Proof.
  intros W K (A & B & C & D). split; [eapply (cexp_sc chr0); eassumption|]. split; [eapply (cexp_tbl (fun _ => false)); eassumption|].
  split; [apply cexp_lok; assumption|apply cexp_linked; assumption].
Qed.
Lemma good_items enc lp L L' n n' e r c : wf_items upper enc lp L e = Some L' -> lab_all n e = Some n' -> good enc L n c -> good enc L' n' (citems e r c).
Proof.
  intros W K (A & B & C & D). split; [eapply (cexp_sc chr0); eassumption|]. split; [eapply (cexp_tbl (fun _ => false)); eassumption|].
  split; [apply cexp_lok; assumption|apply cexp_linked; assumption].
Qed.
Lemma good_args enc lp L L' n n' e r c : wf_items upper enc lp L e = Some L' -> lab_all n e = Some n' -> good enc L n c -> good enc L' n' (cargs e r c).
Proof.
  intros W K (A & B & C & D). split; [eapply (cexp_sc chr0); eassumption|]. split; [eapply (cexp_tbl (fun _ => false)); eassumption|].
  split; [apply cexp_lok; assumption|apply cexp_linked; assumption].
Qed.
Lemma good_lok enc L n c : good enc L n c -> lok c. Proof. intros K; apply K. Qed.

(** what [fin] depends on only grows *)
Definition wx (c c' : cst) : Prop := pre (b_values (c_f c)) (b_values (c_f c')) /\ pre (b_locals (c_f c)) (b_locals (c_f c'))
  /\ pre (b_upvals (c_f c)) (b_upvals (c_f c')) /\ pre (b_protos (c_f c)) (b_protos (c_f c')) /\ pre (c_tbl c) (c_tbl c').
Lemma wx_ext c c' : ext c c' -> wx c c'.
Proof. intros []. unfold wx. auto. Qed.
Lemma wx_refl c : wx c c. Proof. unfold wx. auto using pre_refl. Qed.
Lemma wx_t a b c : wx a b -> wx b c -> wx a c.
Proof. intros (A & B & C & D & E) (A' & B' & C' & D' & E'). unfold wx. eauto 10 using pre_trans. Qed.
Lemma wx_pb a j v c : wx a c -> wx a (patch_b j v c). Proof. exact (fun H => H). Qed.
Lemma wx_loop a l c : wx a c -> wx a (set_loop l c). Proof. exact (fun H => H). Qed.
Lemma wx_endloop a j2 j1 o r c : wx a c -> wx a (endloop j2 j1 o r c).
Proof.
  unfold endloop. cbv zeta. intros K. eapply wx_t; [|apply wx_ext, ext_reg]. apply wx_loop.
  assert (Q : forall l t d, wx a d -> wx a (patch_all l t d)).
  { unfold patch_all. induction l; intros t d Kd; cbn; [exact Kd|]. apply IHl. exact Kd. }
  apply Q, Q. destruct j1; [apply wx_pb|]; (eapply wx_t; [exact K|apply wx_ext, ext_asm1]).
Qed.
Lemma fin_wx F c c' : fin tbl F c' -> wx c c' -> fin tbl F c.
Proof. intros (A & B & C & D & E) (A' & B' & C' & D' & E'). unfold fin. eauto 10 using pre_trans. Qed.
Lemma len_fin F c : fin tbl F c -> pre (c_tbl c) tbl. Proof. intros K; apply K. Qed.

Lemma mt_in P tb tc c0 X d d' : mt P tb tc (oplen c0) (oplen X) X -> ext c0 d -> ext d' X -> mt P tb tc (oplen d) (oplen d') d'.
Proof. intros M A B. eapply mt_sub; [exact M|exact B|apply ext_le; exact A|apply ext_le; exact B|lia]. Qed.
Lemma mt_op P tb tc c0 X o a b d : mt P tb tc (oplen c0) (oplen X) X -> ext c0 d -> ext (asm2 o a b d) X -> lok d ->
  gnth P (oplen d) = Some (I o a b).
Proof.
  intros M A B K. eapply mt_asm; [exact M|exact B|exact K|]. pose proof (ext_le _ _ A). pose proof (ext_le _ _ B) as Q. rewrite oplen_asm2 in Q. lia.
Qed.
Lemma mt_pj P tb tc c0 X o a b v d d2 : mt P tb tc (oplen c0) (oplen X) X -> ext c0 d -> ext (patch_b (oplen d) v d2) X -> ext (asm2 o a b d) d2 -> lok d ->
  gnth P (oplen d) = Some (I o a v).
Proof.
  intros M A B Y K. eapply mt_jmp; [exact M|exact B|exact Y|exact K|]. pose proof (ext_le _ _ A). pose proof (ext_le _ _ B) as Q. pose proof (ext_le _ _ Y) as Q2.
  rewrite oplen_asm2 in Q2. rewrite oplen_patch_b in Q. lia.
Qed.
(* under a patch *)
Lemma mt_inp P tb tc c0 X d j v d' : mt P tb tc (oplen c0) (oplen X) X -> ext c0 d -> ext (patch_b j v d') X -> j < oplen d -> mt P tb tc (oplen d) (oplen d') d'.
Proof.
  intros M A B J. pose proof (ext_le _ _ A). pose proof (ext_le _ _ B) as Q. rewrite oplen_patch_b in Q.
  assert (M2 : mt P tb tc (oplen d) (oplen d') (patch_b j v d')).
  { eapply mt_sub; [exact M|exact B|lia|lia|rewrite oplen_patch_b; lia]. }
  eapply mt_pb; [exact M2|lia|lia|lia].
Qed.
Lemma mt_inp2 P tb tc c0 X d j v j' v' d' : mt P tb tc (oplen c0) (oplen X) X -> ext c0 d -> ext (patch_b j' v' (patch_b j v d')) X -> j < oplen d -> j' < oplen d -> mt P tb tc (oplen d) (oplen d') d'.
Proof.
  intros M A B J J'. pose proof (mt_inp _ _ _ _ _ _ _ _ _ M A B J') as M1. rewrite oplen_patch_b in M1. eapply mt_pb; [exact M1|lia|lia|lia].
Qed.

Lemma mt_mid P tb tc c0 X d j v j' v' d2 d' : mt P tb tc (oplen c0) (oplen X) X -> ext c0 d -> ext (patch_b j' v' (patch_b j v d')) X ->
  ext d2 d' -> j < oplen d -> oplen d2 <= j' -> mt P tb tc (oplen d) (oplen d2) d2.
Proof.
  intros M A B Y J J'. pose proof (ext_le _ _ A). pose proof (ext_le _ _ B) as Q. pose proof (ext_le _ _ Y). rewrite !oplen_patch_b in Q.
  assert (M2 : mt P tb tc (oplen d) (oplen d2) (patch_b j' v' (patch_b j v d'))).
  { eapply mt_sub; [exact M|exact B|lia|lia|rewrite !oplen_patch_b; lia]. }
  assert (M3 : mt P tb tc (oplen d) (oplen d2) (patch_b j v d')) by (eapply mt_pb; [exact M2|lia|lia|lia]).
  assert (M4 : mt P tb tc (oplen d) (oplen d2) d') by (eapply mt_pb; [exact M3|lia|lia|lia]).
  eapply mt_sub; [exact M4|exact Y|lia|lia|lia].
Qed.
Lemma mt_pj1 P tb tc c0 X o a b v j' v' d d2 : mt P tb tc (oplen c0) (oplen X) X -> ext c0 d -> ext (patch_b j' v' (patch_b (oplen d) v d2)) X -> ext (asm2 o a b d) d2 -> lok d ->
  oplen d < j' -> gnth P (oplen d) = Some (I o a v).
Proof.
  intros M A B Y K J. pose proof (ext_le _ _ A). pose proof (ext_le _ _ B) as Q. pose proof (ext_le _ _ Y) as Q2. rewrite !oplen_patch_b in Q. rewrite oplen_asm2 in Q2.
  rewrite (mt_at _ _ _ _ _ _ _ _ M B).
  - rewrite patch_b_at. replace (oplen d =? j') with false by lia. rewrite patch_b_at, Z.eqb_refl.
    pose proof (oplen_asm2 o a b d). destruct Y. rewrite x_code, asm_at by lia. reflexivity.
  - apply fr_pb, fr_pb. eapply fr_asm; eassumption.
  - rewrite !oplen_patch_b. lia.
  - lia.
Qed.
Lemma mt_pj2 P tb tc c0 X o a b v j v' d d2 : mt P tb tc (oplen c0) (oplen X) X -> ext c0 d -> ext (patch_b (oplen d) v' (patch_b j v d2)) X -> ext (asm2 o a b d) d2 -> lok d ->
  j < oplen d -> gnth P (oplen d) = Some (I o a v').
Proof.
  intros M A B Y K J. pose proof (ext_le _ _ A). pose proof (ext_le _ _ B) as Q. pose proof (ext_le _ _ Y) as Q2. rewrite !oplen_patch_b in Q. rewrite oplen_asm2 in Q2.
  rewrite (mt_at _ _ _ _ _ _ _ _ M B).
  - rewrite patch_b_at, Z.eqb_refl, patch_b_at. replace (oplen d =? j) with false by lia.
    pose proof (oplen_asm2 o a b d). destruct Y. rewrite x_code, asm_at by lia. reflexivity.
  - apply fr_pb, fr_pb. eapply fr_asm; eassumption.
  - rewrite !oplen_patch_b. lia.
  - lia.
Qed.
Lemma kx_fin F c X n k : fin tbl F X -> wx c X -> vfind (b_values (c_f c)) n = Some k -> kx F n = k /\ inl_ (b_values F) n.
Proof.
  intros K X0 V. assert (Q : vfind (b_values F) n = Some k) by (eapply pre_vfind; [apply (fin_wx _ _ _ K X0)|exact V]).
  unfold kx, idx, inl_. rewrite Q. eauto.
Qed.
Lemma lx_fin F c X n : fin tbl F X -> wx c X -> vfind (b_locals (c_f c)) n <> None -> lx F n = lidx c n /\ inl_ (b_locals F) n.
Proof.
  intros K X0 V. destruct (vfind (b_locals (c_f c)) n) as [k|] eqn:E; [|congruence].
  assert (Q : vfind (b_locals F) n = Some k) by (eapply pre_vfind; [apply (fin_wx _ _ _ K X0)|exact E]).
  unfold lx, idx, inl_, lidx. rewrite Q, E. eauto.
Qed.
Lemma ux_fin F c X n : fin tbl F X -> wx c X -> vfind (b_upvals (c_f c)) n <> None -> ux F n = uidx c n /\ inl_ (b_upvals F) n.
Proof.
  intros K X0 V. destruct (vfind (b_upvals (c_f c)) n) as [k|] eqn:E; [|congruence].
  assert (Q : vfind (b_upvals F) n = Some k) by (eapply pre_vfind; [apply (fin_wx _ _ _ K X0)|exact E]).
  unfold ux, idx, inl_, uidx. rewrite Q, E. eauto.
Qed.
Lemma value_find n c : vfind (b_values (c_f (fst (put_value n c)))) n = Some (snd (put_value n c)).
Proof. unfold put_value. pose proof (vput_find (b_values (c_f c)) n) as K. destruct (vput _ _). exact K. Qed.
Lemma decl_find x c : vfind (b_locals (c_f (decl x c))) x <> None.
Proof. unfold decl, put_local. pose proof (vput_find (b_locals (c_f c)) x) as K. destruct (vput _ _). cbn [fst snd] in K. cbn. rewrite K. discriminate. Qed.
Lemma good_local enc L n c x : good enc L n c -> memb x L = true -> vfind (b_locals (c_f c)) x <> None.
Proof. intros (A & _) M. destruct (upval_local _ _ _ _ A M) as (_ & E). rewrite E. discriminate. Qed.
Lemma good_up enc L n c x : good enc L n c -> memb x L = false -> owned enc x = true -> vfind (b_upvals (c_f (useup x c))) x <> None.
Proof. intros (A & _) M O. eapply useup_sc; eassumption. Qed.

(** ** functions inside functions *)
Lemma good_fun enc L n r ps c : good enc L n c ->
  good (L :: enc) ps n (PN_REG 0 (mkC (pb0 ps ps) (c_f (PN_REG r c) :: c_up (PN_REG r c)) (c_tbl (PN_REG r c)) None)).
Proof.
  intros (S1 & T & LK & LI). split; [|split; [exact T|split; [|apply linked_fun; exact LI]]].
  - destruct S1 as (A & B & C & D). cbn [skel fst snd] in A, B, C, D.
    pose proof (f_equal (fun k => fst (fst k)) (skel_reg r c) : b_locals (c_f (PN_REG r c)) = b_locals (c_f c)) as K1.
    pose proof (f_equal (fun k => snd (fst k)) (skel_reg r c) : b_upvals (c_f (PN_REG r c)) = b_upvals (c_f c)) as K2.
    assert (K3 : c_up (PN_REG r c) = c_up c) by reflexivity.
    unfold sc. rewrite skel_reg. (split; [|split; [|split]]); cbn [skel c_f c_up pb0 fst snd b_locals b_upvals map chain_ok].
    + reflexivity.
    + rewrite K3. congruence.
    + intros y Y. discriminate.
    + rewrite K1, K2, K3. split; [|exact D]. rewrite A, B. exact C.
  - intros i [K|K]; discriminate.
Qed.
Lemma capi_eq F c X r x : fin tbl F X -> wx c X -> dis F -> memb x (b_locals (c_f c)) = true \/ memb x (b_upvals (c_f c)) = true ->
  (match vfind (b_upvals (c_f c)) x with
   | Some n => I O_GETUPVAL r n
   | None => I O_GETLOCAL r (match vfind (b_locals (c_f c)) x with Some n => n | None => -1 end) end) = capi F r x
  /\ (inl_ (b_upvals F) x \/ inl_ (b_locals F) x).
Proof.
  intros K W D M. pose proof (fin_wx _ _ _ K W) as (_ & PL & PU & _). unfold capi, inl_.
  destruct (vfind (b_upvals (c_f c)) x) as [n|] eqn:E.
  - rewrite (pre_vfind _ _ _ _ PU E). split; eauto.
  - assert (E2 : memb x (b_locals (c_f c)) = true).
    { destruct M as [M|M]; [exact M|]. rewrite vfind_memb, E in M. discriminate. }
    rewrite vfind_memb in E2. destruct (vfind (b_locals (c_f c)) x) as [n|] eqn:E3; [|discriminate].
    pose proof (pre_vfind _ _ _ _ PL E3) as Q.
    destruct (vfind (b_upvals F) x) eqn:E4.
    + assert (memb x (b_locals F) = false) as Q2 by (apply D; rewrite vfind_memb, E4; reflexivity). rewrite vfind_memb, Q in Q2. discriminate.
    + unfold lx, idx. rewrite Q. split; eauto.
Qed.
Lemma captures_has P tb tc F X r us : forall c, X = captures us r c -> fin tbl F X -> dis F -> lok c ->
  (forall x, In x us -> memb x (b_locals (c_f c)) = true \/ memb x (b_upvals (c_f c)) = true) ->
  mt P tb tc (oplen c) (oplen X) X ->
  has P (oplen c) (map (capi F r) us) /\ forall x, In x us -> inl_ (b_upvals F) x \/ inl_ (b_locals F) x.
Proof.
  induction us as [|u us IH]; intros c EX FI D LK M MT; cbn [map].
  - split; [apply has_nil|intros x []].
  - assert (W : ext c X) by (subst X; apply ext_captures).
    destruct (capi_eq F c X r u FI (wx_ext _ _ W) D (M u (or_introl eq_refl))) as (Q & Q2).
    cbn [captures] in EX.
    set (i := match vfind (b_upvals (c_f c)) u with Some n => _ | None => _ end) in Q.
    assert (exists o a b, i = I o a b /\ X = captures us r (asm2 o a b c)) as (o & a & b & Ei & EX2).
    { subst i. destruct (vfind (b_upvals (c_f c)) u); eauto 6. }
    assert (OP : gnth P (oplen c) = Some (I o a b)).
    { eapply mt_op; [exact MT|apply ext_start|rewrite EX2; apply ext_captures|exact LK]. }
    destruct (IH (asm2 o a b c) EX2 FI D (lok_asm2 _ _ _ _ LK)) as (H1 & H2).
    + intros x Hx. apply M. right. exact Hx.
    + rewrite oplen_asm2. intros j J. apply MT. lia.
    + rewrite oplen_asm2 in H1. split.
      * apply has_cons; [|exact H1]. rewrite OP, <- Q, Ei. reflexivity.
      * intros x [<-|Hx]; auto.
Qed.

Definition okg (e : exp) : Prop := forall enc lp L L' n n' r c F P tb tc,
  wf upper enc lp L e = Some L' -> lab n e = Some n' -> good enc L n c -> dis F ->
  fin tbl F (cexp e r c) -> mt P tb tc (oplen c) (oplen (cexp e r c)) (cexp e r c) ->
  has P (oplen c) (gen tbl F e r (oplen c) tb tc) /\ gok tbl F e /\ (forall f, In f (fns e) -> fun_ok tbl f).
Definition okg_all (es : exps) : Prop := forall enc lp L L' n n' r c F P tb tc,
  wf_all upper enc lp L es = Some L' -> lab_all n es = Some n' -> good enc L n c -> dis F ->
  fin tbl F (cexps es r c) -> mt P tb tc (oplen c) (oplen (cexps es r c)) (cexps es r c) ->
  has P (oplen c) (gens tbl F es r (oplen c) tb tc) /\ gok_all tbl F es /\ (forall f, In f (fns_all es) -> fun_ok tbl f).
Definition okg_items (es : exps) : Prop := forall enc lp L L' n n' r c F P tb tc,
  wf_items upper enc lp L es = Some L' -> lab_all n es = Some n' -> good enc L n c -> dis F ->
  fin tbl F (citems es r c) -> mt P tb tc (oplen c) (oplen (citems es r c)) (citems es r c) ->
  has P (oplen c) (geni tbl F es r (oplen c) tb tc) /\ gok_all tbl F es /\ (forall f, In f (fns_all es) -> fun_ok tbl f).
Definition okg_args (es : exps) : Prop := forall enc lp L L' n n' r c F P tb tc,
  wf_items upper enc lp L es = Some L' -> lab_all n es = Some n' -> good enc L n c -> dis F ->
  fin tbl F (cargs es r c) -> mt P tb tc (oplen c) (oplen (cargs es r c)) (cargs es r c) ->
  has P (oplen c) (gena tbl F es r (oplen c) tb tc) /\ gok_all tbl F es /\ (forall f, In f (fns_all es) -> fun_ok tbl f).
Definition okg_clauses (k : clauses) : Prop := forall enc lp L L' n n' r c F P tb tc,
  wf_clauses upper enc lp L k = Some L' -> lab_clauses n k = Some n' -> good enc L n c -> dis F ->
  fin tbl F (cclauses k r c) -> mt P tb tc (oplen c) (oplen (cclauses k r c)) (cclauses k r c) ->
  has P (oplen c) (genk tbl F k r (oplen c) tb tc) /\ gok_clauses tbl F k /\ (forall f, In f (fns_clauses k) -> fun_ok tbl f).

Definition seen {A} (a : A) : Prop := True.
Ltac pvg := repeat match goal with |- context [put_value ?n ?c] =>
  let H1 := fresh "PG" in let H2 := fresh "PO" in let H3 := fresh "PX" in let H4 := fresh "PF" in let H5 := fresh "PT" in
  pose proof (fun enc L m => good_value enc L m n c) as H1; pose proof (oplen_value n c) as H2; pose proof (ext_value n c) as H3;
  pose proof (value_find n c) as H4; pose proof (tbl_value n c) as H5;
  destruct (put_value n c) as [? ?]; cbn [fst snd] in H1, H2, H3, H4, H5 end.
Ltac gd := lazymatch goal with
  | |- good _ _ _ (PN_REG _ _) => apply good_reg; gd
  | |- good _ _ _ (asm2 _ _ _ _) => apply good_asm2; gd
  | |- good _ _ _ (asm1 _ _ _) => apply good_asm1; gd
  | |- good _ _ _ (put_path _ _) => apply good_path; gd
  | |- good _ _ _ (load_value _ _ _) => apply good_load; gd
  | |- good _ _ _ (loadname _ _ _) => apply good_loadname; gd
  | |- good _ _ _ (set_loop (Some ([], [])) _) => apply good_newloop; gd
  | |- good _ _ _ (decl _ _) => apply good_decl; [gd|assumption]
  | |- good _ _ _ (useup _ _) => apply good_useup; [gd|assumption|assumption]
  | |- good _ _ _ (patch_b _ _ _) => apply good_pb; [gd|repeat apply fr_pb; eapply fr_asm; [|xtl]; eapply good_lok; gd]
  | |- good _ _ _ (cexp ?e _ _) => match goal with W : wf _ _ _ _ e = Some _, K : lab _ e = Some _ |- _ => eapply good_exp; [exact W|exact K|gd] end
  | |- good _ _ _ (cexps ?e _ _) => match goal with W : wf_all _ _ _ _ e = Some _, K : lab_all _ e = Some _ |- _ => eapply good_exps; [exact W|exact K|gd] end
  | |- good _ _ _ (citems ?e _ _) => match goal with W : wf_items _ _ _ _ e = Some _, K : lab_all _ e = Some _ |- _ => eapply good_items; [exact W|exact K|gd] end
  | |- good _ _ _ (cargs ?e _ _) => match goal with W : wf_items _ _ _ _ e = Some _, K : lab_all _ e = Some _ |- _ => eapply good_args; [exact W|exact K|gd] end
  | |- good _ _ _ _ => first [eassumption | match goal with PG : _ |- _ => apply PG; gd end]
  end.
Ltac wxt := lazymatch goal with
  | |- wx ?c ?c => apply wx_refl
  | |- wx ?c (patch_b _ _ _) => apply wx_pb; wxt
  | |- wx ?c (set_loop _ _) => apply wx_loop; wxt
  | |- wx ?c (endloop _ _ _ _ _) => apply wx_endloop; wxt
  | |- wx _ (cexp ?e _ _) => eapply wx_t; [|apply wx_ext, cexp_ext]; wxt
  | |- wx _ (cexps ?e _ _) => eapply wx_t; [|apply wx_ext, cexp_ext]; wxt
  | |- wx _ (citems ?e _ _) => eapply wx_t; [|apply wx_ext, cexp_ext]; wxt
  | |- wx _ (cargs ?e _ _) => eapply wx_t; [|apply wx_ext, cexp_ext]; wxt
  | |- wx _ (cclauses ?e _ _) => eapply wx_t; [|apply wx_ext, cexp_ext]; wxt
  | |- wx _ (PN_REG _ _) => eapply wx_t; [|apply wx_ext, ext_reg]; wxt
  | |- wx _ (asm2 _ _ _ _) => eapply wx_t; [|apply wx_ext, ext_asm2]; wxt
  | |- wx _ (asm1 _ _ _) => eapply wx_t; [|apply wx_ext, ext_asm1]; wxt
  | |- wx _ (put_path _ _) => eapply wx_t; [|apply wx_ext, ext_path]; wxt
  | |- wx _ (load_value _ _ _) => eapply wx_t; [|apply wx_ext, ext_load]; wxt
  | |- wx _ (loadname _ _ _) => eapply wx_t; [|apply wx_ext, ext_loadname]; wxt
  | |- wx _ (decl _ _) => eapply wx_t; [|apply wx_ext, ext_decl]; wxt
  | |- wx _ (useup _ _) => eapply wx_t; [|apply wx_ext, ext_useup]; wxt
  | |- wx _ ?c1 => match goal with K : ext ?b c1 |- _ => eapply wx_t; [|apply wx_ext; exact K]; wxt end
  end.
Ltac jl := repeat (rewrite oplen_reg || rewrite oplen_asm2);
  first [lia | match goal with |- context [oplen (cexp ?e ?r ?d)] => let K := fresh in pose proof (ext_le _ _ (proj1 cexp_ext e r d)) as K;
     repeat (rewrite oplen_reg in K || rewrite oplen_asm2 in K); lia end].
Ltac mtt := first
  [ eapply mt_in; [eassumption|xtl|xtl]
  | eapply mt_inp; [eassumption|xtl|xtl|jl]
  | eapply mt_inp2; [eassumption|xtl|xtl|jl|jl] ].
Lemma len_exp enc L n n' e r c F : lab n e = Some n' -> good enc L n c -> fin tbl F (cexp e r c) -> oplen (cexp e r c) = oplen c + size tbl e.
Proof. intros A (_ & B & _) C. eapply (cexp_len (fun _ => false)); [exact A|exact B|apply C]. Qed.
Lemma len_exps enc L n n' e r c F : lab_all n e = Some n' -> good enc L n c -> fin tbl F (cexps e r c) -> oplen (cexps e r c) = oplen c + size_all tbl e.
Proof. intros A (_ & B & _) C. eapply (cexp_len (fun _ => false)); [exact A|exact B|apply C]. Qed.
Lemma len_items enc L n n' e r c F : lab_all n e = Some n' -> good enc L n c -> fin tbl F (citems e r c) -> oplen (citems e r c) = oplen c + size_items tbl e.
Proof. intros A (_ & B & _) C. eapply (cexp_len (fun _ => false)); [exact A|exact B|apply C]. Qed.
Lemma len_args enc L n n' e r c F : lab_all n e = Some n' -> good enc L n c -> fin tbl F (cargs e r c) -> oplen (cargs e r c) = oplen c + size_all tbl e.
Proof. intros A (_ & B & _) C. eapply (cexp_len (fun _ => false)); [exact A|exact B|apply C]. Qed.
Lemma len_clauses enc L n n' e r c F : lab_clauses n e = Some n' -> good enc L n c -> fin tbl F (cclauses e r c) -> oplen (cclauses e r c) = oplen c + size_clauses tbl e.
Proof. intros A (_ & B & _) C. eapply (cexp_len (fun _ => false)); [exact A|exact B|apply C]. Qed.
Ltac sub1 IH len e r d T := lazymatch goal with FIN : fin tbl ?F ?X, MT : mt ?P ?tb ?tc _ _ ?X, DIS : dis _ |- _ =>
  lazymatch goal with S : seen (e, r, d) |- _ => fail | _ => idtac end;
  assert (seen (e, r, d)) by exact Logic.I;
  let Fe := fresh "Fe" in let Ge := fresh "Ge" in let Le := fresh "Le" in let G := fresh "G" in
  assert (Fe : fin tbl F T) by (eapply fin_wx; [exact FIN|wxt]);
  eassert (Ge : good _ _ _ d) by gd;
  epose proof (len _ _ _ _ e r d F ltac:(eassumption) Ge Fe) as Le;
  edestruct (IH _ _ _ _ _ _ r d F P tb tc ltac:(eassumption) ltac:(eassumption) Ge DIS Fe) as (?HS & ?GK & ?FN); [mtt|] end.
Ltac subs := repeat match goal with
  | PX : ext ?X ?c, IH : okg ?e |- _ => match X with context [cexp e ?r ?d] => sub1 IH len_exp e r d (cexp e r d) end
  | MT : mt _ _ _ _ _ ?X, IH : okg ?e |- _ => match X with context [cexp e ?r ?d] => sub1 IH len_exp e r d (cexp e r d) end
  | MT : mt _ _ _ _ _ ?X, IH : okg_all ?e |- _ => match X with context [cexps e ?r ?d] => sub1 IH len_exps e r d (cexps e r d) end
  | MT : mt _ _ _ _ _ ?X, IH : okg_items ?e |- _ => match X with context [citems e ?r ?d] => sub1 IH len_items e r d (citems e r d) end
  | MT : mt _ _ _ _ _ ?X, IH : okg_args ?e |- _ => match X with context [cargs e ?r ?d] => sub1 IH len_args e r d (cargs e r d) end
  | MT : mt _ _ _ _ _ ?X, IH : okg_clauses ?e |- _ => match X with context [cclauses e ?r ?d] => sub1 IH len_clauses e r d (cclauses e r d) end
  end.
Ltac ops := repeat match goal with
  | MT : mt _ _ _ _ _ ?X |- _ => match X with context [patch_b (oplen ?d) ?v ?d2] => match d2 with context [asm2 ?o ?a ?b d] =>
     lazymatch goal with S : seen (d) |- _ => fail | _ => idtac end; assert (seen d) by exact Logic.I;
     let OP := fresh "OP" in eassert (OP : gnth _ (oplen d) = Some (I o a v)) by (eapply (mt_pj _ _ _ _ _ _ _ b); [exact MT|xtl|xtl|xtl|eapply good_lok; gd]) end end
  | MT : mt _ _ _ _ _ ?X |- _ => match X with context [asm2 ?o ?a ?b ?d] =>
     lazymatch goal with S : seen (d) |- _ => fail | _ => idtac end; assert (seen d) by exact Logic.I;
     let OP := fresh "OP" in eassert (OP : gnth _ (oplen d) = Some (I o a b)) by (eapply mt_op; [exact MT|xtl|xtl|eapply good_lok; gd]) end
  end.
Ltac opl := repeat match goal with
  | K : context [oplen (PN_REG ?r ?c)] |- _ => rewrite (oplen_reg r c) in K
  | K : context [oplen (asm2 ?o ?a ?b ?c)] |- _ => rewrite (oplen_asm2 o a b c) in K
  | K : context [oplen (patch_b ?j ?v ?c)] |- _ => rewrite (oplen_patch_b j v c) in K
  | K : context [oplen (load_value ?v ?r ?c)] |- _ => rewrite (oplen_load v r c) in K
  | K : context [oplen (loadname ?r ?v ?c)] |- _ => rewrite (oplen_loadname v r c) in K
  | K : context [oplen (decl ?v ?c)] |- _ => rewrite (oplen_decl v c) in K
  | K : context [oplen (useup ?v ?c)] |- _ => rewrite (oplen_useup v c) in K
  | K : context [oplen (put_path ?v ?c)] |- _ => rewrite (oplen_path v c) in K
  | K : context [oplen (set_loop ?v ?c)] |- _ => rewrite (oplen_loop v c) in K
  | K : context [oplen (endloop ?j2 ?j1 ?o ?r ?c)] |- _ => rewrite (oplen_endloop j2 j1 o r c) in K
  end.
Ltac hs := repeat match goal with |- has _ _ [] => apply has_nil | |- has _ _ (_ :: _) => apply has_cons | |- has _ _ (_ ++ _) => apply has_app end;
  rewrite ?(proj1 (zlen_gen tbl _)), ?(fun es => proj1 (proj1 (proj2 (zlen_gen tbl _)) es)),
   ?(fun es => proj1 (proj2 (proj1 (proj2 (zlen_gen tbl _)) es))), ?(fun es => proj2 (proj2 (proj1 (proj2 (zlen_gen tbl _)) es))), ?(proj2 (proj2 (zlen_gen tbl _))),
   ?zlen_cons; change (zlen (@nil instr)) with 0;
  first [ match goal with |- has _ _ [] => apply has_nil
    | OP : gnth ?P ?q = Some (I ?o _ _) |- gnth ?P ?p = Some (I ?o _ _) => replace p with q by lia; rewrite OP; solve [reflexivity | repeat (f_equal; try lia)]
    | HS : has ?P ?q (gen ?t ?F ?e ?r ?q ?tb ?tc) |- has ?P ?p (gen ?t ?F ?e ?r ?p' ?tb ?tc) => replace p with q by lia; replace p' with q by lia; exact HS
    | HS : has ?P ?q (gens ?t ?F ?e ?r ?q ?tb ?tc) |- has ?P ?p (gens ?t ?F ?e ?r ?p' ?tb ?tc) => replace p with q by lia; replace p' with q by lia; exact HS
    | HS : has ?P ?q (geni ?t ?F ?e ?r ?q ?tb ?tc) |- has ?P ?p (geni ?t ?F ?e ?r ?p' ?tb ?tc) => replace p with q by lia; replace p' with q by lia; exact HS
    | HS : has ?P ?q (gena ?t ?F ?e ?r ?q ?tb ?tc) |- has ?P ?p (gena ?t ?F ?e ?r ?p' ?tb ?tc) => replace p with q by lia; replace p' with q by lia; exact HS
    | HS : has ?P ?q (genk ?t ?F ?e ?r ?q ?tb ?tc) |- has ?P ?p (genk ?t ?F ?e ?r ?p' ?tb ?tc) => replace p with q by lia; replace p' with q by lia; exact HS
    end | idtac ].
Ltac kxs := repeat match goal with PF : vfind (b_values (c_f ?c)) ?n = Some ?k, FIN : fin tbl ?F ?X |- _ =>
  lazymatch goal with S : kx F n = k |- _ => fail | _ => idtac end;
  let K := fresh "KX" in assert (K : kx F n = k /\ inl_ (b_values F) n) by (eapply kx_fin; [exact FIN| |exact PF]; wxt); destruct K as (K & ?) end.
Ltac lxs := repeat match goal with FIN : fin tbl ?F ?X |- _ => match X with context [lidx ?c ?x] =>
  lazymatch goal with S : lx F x = lidx c x |- _ => fail | _ => idtac end;
  let K := fresh "LX" in assert (K : lx F x = lidx c x /\ inl_ (b_locals F) x) by
   (apply (lx_fin F c X); [exact FIN|wxt|first [apply decl_find | eapply good_local; [gd|assumption]]]); destruct K as (K & ?) end end.
Ltac uxs := repeat match goal with FIN : fin tbl ?F ?X |- _ => match X with context [uidx ?c ?x] =>
  lazymatch goal with S : ux F x = uidx c x |- _ => fail | _ => idtac end;
  let K := fresh "UX" in assert (K : ux F x = uidx c x /\ inl_ (b_upvals F) x) by
   (apply (ux_fin F c X); [exact FIN|wxt|eapply good_up; [gd|assumption|assumption]]); destruct K as (K & ?) end end.
Ltac rws := repeat match goal with K : kx ?F ?n = _ |- context [kx ?F ?n] => rewrite K | K : lx ?F ?n = _ |- context [lx ?F ?n] => rewrite K | K : ux ?F ?n = _ |- context [ux ?F ?n] => rewrite K end.
Ltac fnt := let f := fresh in let K := fresh in intros f K; repeat (apply in_app_or in K; destruct K as [K|K]); try contradiction; eauto.
Ltac fin_ := split; [autorewrite with cgen; cbv zeta; rws; hs | split; [autorewrite with cgok; tauto | fnt]].

Lemma lick_len es : lick_parts es = true -> elen es <= 2.
Proof. destruct es as [|a [|b [|c es]]]; cbn; intros; try discriminate; lia. Qed.
Lemma cexp_gen :
  (forall e, okg e) /\ (forall es, okg_all es /\ okg_items es /\ okg_args es) /\ (forall k, okg_clauses k).
Proof.
  apply exp_ind3.
  all: repeat match goal with |- forall _, _ => intro end; repeat match goal with IH : _ /\ _ |- _ => destruct IH end;
    repeat match goal with |- _ /\ _ => split end;
    intros enc lp L L' n0 n0' r0 c0 F P tb tc WF LB GD DIS FIN MT;
    wfe; cbn [lab lab_all lab_clauses] in LB; wfinv; cbn [cexp cexps citems cargs cclauses] in FIN, MT; cbv zeta in FIN, MT;
    unfold loadname, load_value in FIN, MT; try change (negb (PN_IS_PTR v) && (v =? u64 (sx12 v))) with (imm v) in FIN, MT; revert FIN MT; pvg; intros FIN MT; unfold asm1 in *.
  all: try match goal with K : lick_parts _ = true |- _ => apply lick_len in K end.
  all: cbn [fns fns_all fns_clauses].
  all: try (subs; kxs; lxs; uxs; ops; opl; fin_; fail).
  all: try match goal with K : _ = true |- context [EIf _ ?b ?k] => assert (k = KEnd \/ keeps_all b = true) by (clear - K; destruct k; auto)
     | K : _ = true |- context [KElsif _ ?b ?k] => assert (k = KEnd \/ keeps_all b = true) by (clear - K; destruct k; auto) end.
  - destruct (imm v) eqn:E; kxs; ops; opl; autorewrite with cgen cgok; rewrite E; rws; (split; [hs|split; [intros; try discriminate; assumption|fnt]]).
  - destruct post; lxs; ops; opl; fin_.
  - subs; kxs; lxs; uxs; ops; opl; fin_.
  - assert (G0 : good enc L n0 (PN_REG r0 c0)) by gd.
    set (C0 := PN_REG r0 c0) in *.
    assert (E0 : oplen C0 = oplen c0) by apply oplen_reg.
    set (Ce := cexp c (r0 + 1) C0) in *. set (C1 := asm2 O_NOTJMP (r0 + 1) 0 Ce) in *.
    set (D := PN_REG r0 (set_loop (Some ([], [])) C1)) in *. set (CB := cexps b r0 D) in *.
    assert (XB : ext (set_loop (Some ([], [])) C1) CB) by (eapply ext_t; [apply ext_reg|apply cexp_ext]).
    assert (XE : ext Ce (endloop (oplen C0) (Some (oplen Ce)) (c_loop C1) r0 CB)).
    { apply ext_endloop; [apply ext_asm2|exact XB|]. intros j [= <-]. lia. }
    assert (Fe : fin tbl F Ce) by (eapply fin_wx; [exact FIN|apply wx_ext; exact XE]).
    assert (Fb : fin tbl F CB) by (eapply fin_wx; [exact FIN|wxt]).
    eassert (Ge : good _ _ _ Ce) by (unfold Ce; gd).
    eassert (Gd : good _ _ _ D) by (unfold D; apply good_reg, good_newloop, good_asm2; exact Ge).
    assert (K1 : lok C1) by (apply lok_asm2; eapply good_lok; exact Ge).
    assert (Kb : lok CB) by (apply cexp_lok; eapply good_lok; exact Gd).
    epose proof (len_exp _ _ _ _ c (r0 + 1) C0 F ltac:(eassumption) G0 Fe) as Le.
    epose proof (len_exps _ _ _ _ b r0 D F ltac:(eassumption) Gd Fb) as Lb.
    assert (ED : oplen D = oplen Ce + 1) by (unfold D; rewrite oplen_reg, oplen_loop; apply oplen_asm2).
    pose proof (proj1 (size_pos tbl F) c). pose proof (proj1 (proj1 (proj2 (size_pos tbl F)) b)).
    pose proof (oplen_endloop (oplen C0) (Some (oplen Ce)) (c_loop C1) r0 CB) as EX.
    assert (E1 : oplen C1 = oplen Ce + 1) by apply oplen_asm2.
    fold Ce in Le. fold CB in Lb.
    assert (OP : gnth P (oplen Ce) = Some (I O_NOTJMP (r0 + 1) (oplen CB + 1 - oplen Ce - 1))).
    { eapply mt_loopjmp; [exact MT|eapply good_lok; exact Ge|exact XB|lia]. }
    destruct (mt_loop _ _ _ _ _ _ _ _ _ _ MT K1 Kb XB) as (Mb & OP2); [lia|lia|intros j [= <-]; lia|].
    match goal with IH : okg c |- _ => edestruct (IH _ _ _ _ _ _ (r0 + 1) C0 F P tb tc ltac:(eassumption) ltac:(eassumption) G0 DIS Fe) as (HS & GK & FN) end.
    { eapply mt_sub; [exact MT|exact XE|lia|fold Ce; lia|fold Ce; lia]. }
    match goal with IH : okg_all b |- _ => edestruct (IH _ _ _ _ _ _ r0 D F P (oplen CB + 1) (oplen C0) ltac:(eassumption) ltac:(eassumption) Gd DIS Fb) as (HS2 & GK2 & FN2) end.
    { replace (oplen D) with (oplen C1) by lia. exact Mb. }
    split; [|split; [autorewrite with cgok; tauto|fnt]].
    autorewrite with cgen; cbv zeta. replace (oplen c0 + size tbl c + 1 + size_all tbl b + 1) with (oplen CB + 1) by lia. rewrite <- E0. hs.
  - assert (G0 : good enc L n0 (PN_REG r0 c0)) by gd.
    set (C0 := PN_REG r0 c0) in *.
    assert (E0 : oplen C0 = oplen c0) by apply oplen_reg.
    set (D := PN_REG r0 (set_loop (Some ([], [])) C0)) in *. set (CB := cexps b r0 D) in *.
    assert (XB : ext (set_loop (Some ([], [])) C0) CB) by (eapply ext_t; [apply ext_reg|apply cexp_ext]).
    assert (Fb : fin tbl F CB) by (eapply fin_wx; [exact FIN|wxt]).
    eassert (Gd : good _ _ _ D) by (unfold D; apply good_reg, good_newloop; exact G0).
    assert (K1 : lok C0) by (eapply good_lok; exact G0).
    assert (Kb : lok CB) by (apply cexp_lok; eapply good_lok; exact Gd).
    epose proof (len_exps _ _ _ _ b r0 D F ltac:(eassumption) Gd Fb) as Lb.
    assert (ED : oplen D = oplen C0) by (unfold D; rewrite oplen_reg, oplen_loop; reflexivity).
    pose proof (proj1 (proj1 (proj2 (size_pos tbl F)) b)).
    pose proof (oplen_endloop (oplen C0) None (c_loop C0) r0 CB) as EX.
    fold CB in Lb.
    destruct (mt_loop _ _ _ _ _ _ _ _ _ _ MT K1 Kb XB) as (Mb & OP2); [lia|lia|intros j [=]|].
    match goal with IH : okg_all b |- _ => edestruct (IH _ _ _ _ _ _ r0 D F P (oplen CB + 1) (oplen C0) ltac:(eassumption) ltac:(eassumption) Gd DIS Fb) as (HS2 & GK2 & FN2) end.
    { rewrite ED. exact Mb. }
    rewrite ED in HS2.
    split; [|split; [autorewrite with cgok; tauto|fnt]].
    autorewrite with cgen; cbv zeta. replace (oplen c0 + size_all tbl b + 1) with (oplen CB + 1) by lia. rewrite <- E0. hs.
  - split; [|split; [exact Logic.I|fnt]]. autorewrite with cgen. hs.
    rewrite oplen_reg, oplen_asm2, oplen_loop, oplen_reg in MT. rewrite MT by lia.
    destruct (fr_now c0 (good_lok _ _ _ _ GD)) as (A & B).
    change (loops (PN_REG r0 (asm2 O_JMP 0 0 (set_loop ?l ?c)))) with (match l with Some p => p | None => ([], []) end). cbv iota.
    cbn [fst snd]. change (loops (PN_REG r0 c0)) with (loops c0). rewrite B, memb_app, A. cbn. rewrite Z.eqb_refl. reflexivity.
  - split; [|split; [exact Logic.I|fnt]]. autorewrite with cgen. hs.
    rewrite oplen_reg, oplen_asm2, oplen_loop, oplen_reg in MT. rewrite MT by lia.
    destruct (fr_now c0 (good_lok _ _ _ _ GD)) as (A & B).
    change (loops (PN_REG r0 (asm2 O_JMP 0 0 (set_loop ?l ?c)))) with (match l with Some p => p | None => ([], []) end). cbv iota.
    cbn [fst snd]. change (loops (PN_REG r0 c0)) with (loops c0). rewrite memb_app, B. cbn. rewrite Z.eqb_refl. reflexivity.
  - assert (KO : match k with AInt i => 0 <= i < 1024 | AVar y => memb y L = true | AKey v => True end) by (destruct k; cbn [key_ok] in *; wfinv; try exact Logic.I; try assumption; split; [apply Z.leb_le|apply Z.ltb_lt]; assumption).
    destruct up, k; wfinv; revert FIN MT; pvg; intros FIN MT; subst; subs; kxs; lxs; uxs; ops.
    all: try match goal with PX : ext (asm2 ?o ?a ?b ?d) _, FIN : fin tbl ?F ?X |- _ =>
      let OP := fresh "OP" in eassert (OP : gnth _ (oplen d) = Some (I o a b)) by (eapply mt_op; [exact MT|xtl|xtl|eapply good_lok; gd]);
      let K := fresh "K" in
      first [ assert (K : ux F x = uidx (useup x (PN_REG r0 c0)) x /\ inl_ (b_upvals F) x) by (apply (ux_fin F (useup x (PN_REG r0 c0)) X); [exact FIN|wxt|eapply good_up; [gd|assumption|assumption]])
            | assert (K : lx F x = lidx c0 x /\ inl_ (b_locals F) x) by (apply (lx_fin F c0 X); [exact FIN|wxt|eapply good_local; [gd|assumption]]) ];
      destruct K as (K & ?) end.
    all: opl; fin_.
  - match goal with K : (if ?x =? l then _ else _) = Some _ |- _ => rename x into m; destruct (m =? l) eqn:El in K; [|discriminate]; injection K as <- end.
    apply Z.eqb_eq in El. subst m.
    pose proof (good_fun _ _ _ r0 ps _ GD) as G0.
    destruct (fun_up ps 0 (PN_REG r0 c0) b) as (t & up & U & _).
    set (C0 := PN_REG 0 (mkC (pb0 ps ps) (c_f (PN_REG r0 c0) :: c_up (PN_REG r0 c0)) (c_tbl (PN_REG r0 c0)) None)) in *.
    assert (X0 : oplen C0 = 0) by (unfold C0; rewrite oplen_reg; reflexivity).
    match goal with W : wf_all _ _ _ _ b = Some _ |- _ => rename W into WB end.
    match goal with W : lab_all _ b = Some _ |- _ => rename W into LBB end.
    pose proof (good_exps _ _ _ _ _ _ b 0 C0 WB LBB G0) as G1.
    pose proof (proj1 (proj1 (proj2 (cexp_loops upper)) b) _ _ _ 0 C0 WB) as LP.
    pose proof (proj1 (proj1 (proj2 (cexp_stk upper)) b) _ _ _ _ 0 C0 WB (or_introl (stk_reg _ _))) as SK.
    set (C1 := cexps b 0 C0) in *.
    unfold endfun in FIN, MT. rewrite U in FIN, MT.
    set (g := c_f (asm2 O_RETURN 0 0 C1)) in *. change (c_f (asm1 O_RETURN 0 C1)) with g in *.
    set (f0 := set_upvals (c_f (PN_REG r0 c0)) (b_upvals (c_f (PN_REG r0 c0)) ++ t)) in *.
    set (vp := vput (b_protos f0) (zlen (c_tbl C1))) in *.
    set (D := mkC (set_protos f0 (fst vp)) up (c_tbl C1 ++ [g]) (c_loop (PN_REG r0 c0))) in *.
    assert (ZT : zlen (c_tbl C1) = l) by apply G1.
    assert (PT : pre (c_tbl C1 ++ [g]) tbl).
    { apply len_fin in FIN. rewrite tbl_captures in FIN. exact FIN. }
    assert (GT : gnth tbl l = Some g) by (eapply fun_ups; eassumption).
    assert (DG : dis g).
    { intros xx Hx. destruct G1 as (S1 & _). apply S1 in Hx. destruct S1 as (S1 & _). change (b_locals g) with (b_locals (c_f C1)).
      change (b_locals (c_f C1)) with (fst (fst (skel C1))). rewrite S1. apply Hx. }
    assert (FG : fin tbl g C1).
    { split; [apply pre_refl|]. split; [apply pre_refl|]. split; [apply pre_refl|]. split; [apply pre_refl|].
      eapply pre_trans; [|exact PT]. apply pre_app. }
    assert (CG : b_code g = code C1 ++ [I O_RETURN 0 0]) by reflexivity.
    match goal with IH : okg_all b |- _ => edestruct (IH _ _ _ _ _ _ 0 C0 g (b_code g) 0 0 ltac:(eassumption) ltac:(eassumption) G0 DG FG) as (HS & GK & FN) end.
    { intros i Hi. fold C1. fold C1 in Hi. rewrite LP. change (loops C0) with (@nil Z, @nil Z). cbn [fst snd memb existsb].
      rewrite CG. unfold oplen in Hi. rewrite gnth_app1 by (unfold code in *; lia). reflexivity. }
    pose proof (len_exps _ _ _ _ b 0 C0 g ltac:(eassumption) G0 FG) as Lb. fold C1 in Lb.
    assert (OD : oplen D = oplen c0) by (change (oplen D) with (oplen (PN_REG r0 c0)); apply oplen_reg).
    assert (LD : lok D).
    { apply (lok_reg r0) in GD || idtac. destruct GD as (_ & _ & LK & _). apply (lok_reg r0) in LK. exact LK. }
    assert (OP : gnth P (oplen D) = Some (I O_PROTO r0 (snd vp))).
    { rewrite <- OD in MT. eapply mt_op; [exact MT|apply ext_start|apply ext_captures|exact LD]. }
    pose proof (oplen_asm2 O_PROTO r0 (snd vp) D) as OE.
    edestruct (captures_has P tb tc F _ r0 (b_upvals g) (asm2 O_PROTO r0 (snd vp) D) eq_refl FIN DIS (lok_asm2 _ _ _ _ LD)) as (HC1 & HC2).
    { intros xx Hx. destruct G1 as (_ & _ & _ & LI). unfold linked, lkk, skel in LI. rewrite U in LI. cbn [fst snd lks] in LI. apply LI. apply memb_In. exact Hx. }
    { intros j J. apply MT. lia. }
    assert (PV : vfind (b_protos F) l = Some (snd vp)).
    { pose proof (fin_wx _ _ _ FIN (wx_ext _ _ (ext_captures _ _ _))) as (_ & _ & _ & PP & _).
      eapply pre_vfind; [exact PP|]. change (b_protos (c_f (asm2 O_PROTO r0 (snd vp) D))) with (fst vp). rewrite <- ZT. apply vput_find. }
    assert (UE : ups tbl l = b_upvals g) by (apply ups_eq; exact GT).
    split; [|split].
    + autorewrite with cgen. rewrite UE, <- OD. apply has_cons; [rewrite OP; unfold px, idx; rewrite PV; reflexivity|]. rewrite <- OE. exact HC1.
    + autorewrite with cgok. split; [unfold inl_; eauto|]. split; [eauto|]. rewrite UE. exact HC2.
    + intros q K. apply in_app_or in K. destruct K as [K|[<-|[]]]; [apply FN; exact K|].
      unfold fun_ok. exists g. split; [exact GT|]. rewrite X0 in HS. split.
      { apply has_app; [exact HS|]. rewrite (proj1 (proj1 (proj2 (zlen_gen tbl g)) b)). apply has_cons; [|apply has_nil].
        rewrite CG. rewrite gnth_app2 by (unfold oplen, code in *; lia). replace (0 + size_all tbl b - zlen (code C1)) with 0 by (unfold oplen, code in *; lia). reflexivity. }
      split; [rewrite CG, zlen_snoc; unfold oplen, code in *; lia|]. split; [exact GK|].
      split; [exact SK|].
      assert (XC : ext C0 C1) by apply cexp_ext.
      assert (SG : b_sig (c_f C1) = ps /\ pre ps (b_locals (c_f C1))).
      { destruct XC. split; [|exact x_loc]. rewrite x_sig. reflexivity. }
      split; [apply SG|]. split; [apply SG|]. split; [assumption|]. split; [exact DG|].
      split; [change (b_upvals g) with (b_upvals (c_f C1)); unfold C1, C0; eapply captured_eq; [exact WB|apply GD]|].
      destruct G1 as ((S1 & _) & _). change (b_locals g) with (fst (fst (skel C1))). rewrite S1. eapply (proj1 (proj1 (proj2 (wf_vars chr0)) b)). exact WB.
  - assert (Fe : fin tbl F (cexp c (r0 + 1) (asm2 O_TESTJMP (r0 + 1) 0 (PN_REG r0 c0)))) by (eapply fin_wx; [exact FIN|wxt]).
    assert (Gc : good enc L n0 (asm2 O_TESTJMP (r0 + 1) 0 (PN_REG r0 c0))) by gd.
    match goal with IH : okg c |- _ => edestruct (IH _ _ _ _ _ _ (r0 + 1) (asm2 O_TESTJMP (r0 + 1) 0 (PN_REG r0 c0)) F P tb tc ltac:(eassumption) ltac:(eassumption) Gc DIS Fe) as (HS & GK & FN) end.
    { eapply mt_mid; [exact MT|xtl|xtl|xtl|jl|jl]. }
    assert (OP1 : gnth P (oplen (PN_REG r0 c0)) = Some (I O_TESTJMP (r0 + 1) (oplen
                              (cexps b r0
                                 (PN_REG r0
                                    (asm2 O_NOTJMP (r0 + 1) 0
                                       (cexp c (r0 + 1)
                                          (asm2 O_TESTJMP (r0 + 1) 0
                                             (PN_REG r0 c0)))))) -
                            oplen (PN_REG r0 c0) - 1))).
    { eapply (mt_pj1 _ _ _ _ _ _ _ 0); [exact MT|xtl|xtl|xtl|eapply good_lok; gd|jl]. }
    assert (OP2 : gnth P (oplen (cexp c (r0 + 1)
                                          (asm2 O_TESTJMP (r0 + 1) 0
                                             (PN_REG r0 c0)))) = Some (I O_NOTJMP (r0 + 1) (oplen
                              (cexps b r0
                                 (PN_REG r0
                                    (asm2 O_NOTJMP (r0 + 1) 0
                                       (cexp c (r0 + 1)
                                          (asm2 O_TESTJMP (r0 + 1) 0
                                             (PN_REG r0 c0)))))) -
                            oplen (cexp c (r0 + 1)
                                          (asm2 O_TESTJMP (r0 + 1) 0
                                             (PN_REG r0 c0))) - 1))).
    { eapply (mt_pj2 _ _ _ _ _ _ _ 0); [exact MT|xtl|xtl|xtl|eapply good_lok; gd|jl]. }
    epose proof (len_exp _ _ _ _ c (r0 + 1) _ F ltac:(eassumption) Gc Fe) as Le.
    assert (seen (c, r0 + 1, asm2 O_TESTJMP (r0 + 1) 0 (PN_REG r0 c0))) by exact Logic.I.
    subs; opl; fin_.
Qed.
End G.
