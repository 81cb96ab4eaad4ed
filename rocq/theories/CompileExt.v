(** Compiling an expression only extends the function under construction. *)
From Verif Require Import Base Arr GArr WordModel AsmModel CompileModel VmModel SrcSpec CompileProofs CompileEq.
From Coq Require Import ZifyBool.
Ltac Zify.zify_post_hook ::= Z.div_mod_to_equations.

Definition code (c : cst) : list instr := b_code (c_f c).
Definition upx (f f' : pb) : Prop := exists t, f' = set_upvals f (b_upvals f ++ t).
Definition pre {A} (l l' : list A) : Prop := exists t, l' = l ++ t.
Lemma pre_refl {A} (l : list A) : pre l l. Proof. exists []. rewrite app_nil_r. reflexivity. Qed.
Lemma pre_trans {A} (a b c : list A) : pre a b -> pre b c -> pre a c.
Proof. intros [t ->] [t' ->]. exists (t ++ t'). rewrite app_assoc. reflexivity. Qed.
Lemma pre_app {A} (l t : list A) : pre l (l ++ t). Proof. exists t. reflexivity. Qed.
Lemma pre_vfind l l' x i : pre l l' -> vfind l x = Some i -> vfind l' x = Some i.
Proof. intros [t ->] E. rewrite vfind_app, E. reflexivity. Qed.
Lemma pre_gnth {A} (l l' : list A) i x : pre l l' -> gnth l i = Some x -> gnth l' i = Some x.
Proof. intros [t ->] E. pose proof (gnth_Some _ _ _ E). rewrite gnth_app1 by lia. exact E. Qed.
Lemma upx_refl f : upx f f. Proof. exists []. rewrite app_nil_r. destruct f; reflexivity. Qed.
Lemma upx_trans a b c : upx a b -> upx b c -> upx a c.
Proof. intros [t ->] [t' ->]. exists (t ++ t'). cbn. rewrite app_assoc. reflexivity. Qed.
Lemma chain_refl l : Forall2 upx l l.
Proof. induction l; constructor; auto using upx_refl. Qed.
Lemma chain_trans a b c : Forall2 upx a b -> Forall2 upx b c -> Forall2 upx a c.
Proof. intros H. revert c. induction H; intros c K; inversion K; subst; constructor; eauto using upx_trans. Qed.

(** [ext_at n c c']: everything below position n is kept *)
Record ext_at (n : Z) (c c' : cst) : Prop := mkExt {
  x_code : forall i, i < n -> gnth (code c') i = gnth (code c) i;
  x_len : oplen c <= oplen c';
  x_val : pre (b_values (c_f c)) (b_values (c_f c'));
  x_loc : pre (b_locals (c_f c)) (b_locals (c_f c'));
  x_up : pre (b_upvals (c_f c)) (b_upvals (c_f c'));
  x_pro : pre (b_protos (c_f c)) (b_protos (c_f c'));
  x_tbl : pre (c_tbl c) (c_tbl c');
  x_chain : Forall2 upx (c_up c) (c_up c');
  x_stk : b_stack (c_f c) <= b_stack (c_f c');
  x_sig : b_sig (c_f c') = b_sig (c_f c);
  x_bs : exists bs, fst (loops c') = fst (loops c) ++ bs /\ Forall (fun i => n <= i < oplen c') bs;
  x_cs : exists cs, snd (loops c') = snd (loops c) ++ cs /\ Forall (fun i => n <= i < oplen c') cs }.
Definition ext (c c' : cst) : Prop := ext_at (oplen c) c c'.

Lemma ext_refl n c : ext_at n c c.
Proof. constructor; auto using pre_refl, chain_refl with zarith; exists []; rewrite app_nil_r; auto. Qed.
Lemma ext_trans n m a b c : ext_at n a b -> ext_at m b c -> n <= m -> ext_at n a c.
Proof.
  intros [] [] H. constructor; eauto using pre_trans, chain_trans with zarith.
  - intros i I. rewrite x_code1, x_code0 by lia. reflexivity.
  - congruence.
  - destruct x_bs0 as (l & E & F), x_bs1 as (l' & E' & F'). exists (l ++ l'). rewrite E', E, app_assoc. split; [reflexivity|].
    apply Forall_app. split; eapply Forall_impl; [|exact F| |exact F']; cbn; lia.
  - destruct x_cs0 as (l & E & F), x_cs1 as (l' & E' & F'). exists (l ++ l'). rewrite E', E, app_assoc. split; [reflexivity|].
    apply Forall_app. split; eapply Forall_impl; [|exact F| |exact F']; cbn; lia.
Qed.
(* one step on the right *)
Lemma ext_r n a b c : ext_at n a b -> n <= oplen b -> ext b c -> ext_at n a c.
Proof. intros. eapply ext_trans; [eassumption|exact H1|lia]. Qed.
Lemma ext_start c : ext c c. Proof. apply ext_refl. Qed.

Lemma ext_reg r c : ext c (PN_REG r c).
Proof.
  unfold ext. destruct c as [f up t lo]. unfold PN_REG, onf. cbn [c_f c_up c_tbl c_loop].
  destruct (b_stack f <=? r) eqn:E; [|apply ext_refl].
  constructor; cbn; auto using pre_refl, chain_refl with zarith; exists []; rewrite app_nil_r; auto.
Qed.
Lemma ext_asm2 o a b c : ext c (asm2 o a b c).
Proof.
  unfold ext. constructor; cbn; auto using pre_refl, chain_refl with zarith.
  - intros i I. unfold code. cbn. rewrite gnth_app1 by exact I. reflexivity.
  - rewrite oplen_asm2. lia.
  - exists []; rewrite app_nil_r; auto. - exists []; rewrite app_nil_r; auto.
Qed.
Lemma ext_asm1 o a c : ext c (asm1 o a c). Proof. apply ext_asm2. Qed.
Lemma ext_value v c : ext c (fst (put_value v c)).
Proof.
  unfold ext, put_value, vput. destruct (vfind _ _); cbn.
  - constructor; cbn; auto using pre_refl, chain_refl with zarith; exists []; rewrite app_nil_r; auto.
  - constructor; cbn; auto using pre_refl, pre_app, chain_refl with zarith; exists []; rewrite app_nil_r; auto.
Qed.
Lemma ext_path v c : ext c (put_path v c).
Proof. unfold ext, put_path. constructor; cbn; auto using pre_refl, chain_refl with zarith; exists []; rewrite app_nil_r; auto. Qed.
Lemma ext_decl v c : ext c (decl v c).
Proof.
  unfold ext, decl, put_local, vput. destruct (vfind _ _); cbn.
  - constructor; cbn; auto using pre_refl, chain_refl with zarith; exists []; rewrite app_nil_r; auto.
  - constructor; cbn; auto using pre_refl, pre_app, chain_refl with zarith; exists []; rewrite app_nil_r; auto.
Qed.
Lemma push_first_upx k x l : Forall2 upx l (push_first k x l).
Proof. revert l. induction k; intros [|f l]; cbn; constructor; auto using chain_refl, upx_refl. exists [x]. reflexivity. Qed.
Lemma ext_useup x c : ext c (useup x c).
Proof.
  unfold ext, useup, PN_UPVAL. destruct (vfind (b_locals _) _); [apply ext_refl|]. destruct (vfind (b_upvals _) _); [apply ext_refl|].
  destruct (find_owner _ _); [|apply ext_refl]. cbn.
  constructor; cbn; auto using pre_refl, pre_app, push_first_upx with zarith; exists []; rewrite app_nil_r; auto.
Qed.
Lemma ext_load v r c : ext c (load_value v r c).
Proof.
  unfold load_value. destruct (_ && _); [apply ext_asm2|]. pose proof (ext_value v c) as K. destruct (put_value v c) as [c1 k]. cbn [fst] in K.
  eapply ext_r; [exact K|apply K|apply ext_asm2].
Qed.
Lemma ext_loadname n r c : ext c (loadname r n c).
Proof.
  unfold loadname. pose proof (ext_value n c) as K. destruct (put_value n c) as [c1 k]. cbn [fst] in K.
  eapply ext_r; [exact K|apply K|apply ext_asm2].
Qed.
Lemma ext_captures us r c : ext c (captures us r c).
Proof.
  revert c. induction us as [|u us IH]; intros c; cbn; [apply ext_refl|]. destruct (vfind _ _).
  - eapply ext_r; [apply ext_asm2|rewrite oplen_asm2; lia|apply IH].
  - eapply ext_r; [apply ext_asm2|rewrite oplen_asm2; lia|apply IH].
Qed.
(* patching what was emitted since c0 *)
Lemma seti_len l j g : zlen (seti l j g) = zlen l.
Proof. unfold seti. destruct (gnth l j); [apply zlen_gupd|reflexivity]. Qed.
Lemma seti_other l j g i : i <> j -> gnth (seti l j g) i = gnth l i.
Proof. intros. unfold seti. destruct (gnth l j); [apply gnth_gupd_other; congruence|reflexivity]. Qed.
Lemma seti_same l j g x : gnth l j = Some x -> gnth (seti l j g) j = Some (g x).
Proof. intros E. unfold seti. rewrite E. apply gnth_gupd_same. eapply gnth_Some; eassumption. Qed.
Lemma oplen_patch_b j v c : oplen (patch_b j v c) = oplen c.
Proof. unfold oplen, patch_b, onf. cbn. apply seti_len. Qed.
Lemma oplen_patch_a j v c : oplen (patch_a j v c) = oplen c.
Proof. unfold oplen, patch_a, onf. cbn. apply seti_len. Qed.
Lemma oplen_patch_all l v c : oplen (patch_all l v c) = oplen c.
Proof. unfold patch_all. revert c. induction l; intros; cbn; [reflexivity|]. rewrite IHl. apply oplen_patch_a. Qed.
Lemma ext_patch_b n a c j v : ext_at n a c -> n <= j -> ext_at n a (patch_b j v c).
Proof.
  intros [] J. constructor; auto.
  - intros i I. unfold code, patch_b, onf. cbn. rewrite seti_other by lia. apply x_code0; lia.
  - rewrite oplen_patch_b. lia.
  - rewrite oplen_patch_b. assumption. - rewrite oplen_patch_b. assumption.
Qed.
Lemma ext_patch_a n a c j v : ext_at n a c -> n <= j -> ext_at n a (patch_a j v c).
Proof.
  intros [] J. constructor; auto.
  - intros i I. unfold code, patch_a, onf. cbn. rewrite seti_other by lia. apply x_code0; lia.
  - rewrite oplen_patch_a. lia.
  - rewrite oplen_patch_a. assumption. - rewrite oplen_patch_a. assumption.
Qed.
Lemma ext_patch_all n a c l v : ext_at n a c -> Forall (fun j => n <= j) l -> ext_at n a (patch_all l v c).
Proof.
  unfold patch_all. intros H F. revert c H. induction F; intros c H'; cbn; [assumption|].
  apply IHF. apply ext_patch_a; assumption.
Qed.

Lemma ext_t a b c : ext a b -> ext b c -> ext a c.
Proof. intros H K. eapply ext_r; [exact H|apply H|exact K]. Qed.
Lemma ext_pb a c j v : ext a c -> oplen a <= j -> ext a (patch_b j v c).
Proof. apply ext_patch_b. Qed.
Lemma ext_le a c : ext a c -> oplen a <= oplen c. Proof. intros []. assumption. Qed.
Lemma oplen_loop l c : oplen (set_loop l c) = oplen c. Proof. reflexivity. Qed.

(* the body of a loop, compiled with fresh jump lists, then closed *)
Lemma ext_endloop c0 c1 j2 j1 r c : ext c0 c1 -> ext (set_loop (Some ([], [])) c1) c ->
  (forall j, j1 = Some j -> oplen c0 <= j) -> ext c0 (endloop j2 j1 (c_loop c1) r c).
Proof.
  intros H K J. destruct K as [k1 k2 k3 k4 k5 k6 k7 k8 k9 k10 (bs & kb & kb') (cs & kc & kc')]. cbn in kb, kc. cbn in *.
  rewrite oplen_loop in *. pose proof (ext_le _ _ H).
  unfold endloop. cbv zeta. rewrite kb, kc.
  assert (X : ext_at (oplen c0) c0 (set_loop (c_loop c1) c)).
  { eapply ext_trans; [exact H| |exact H0]. constructor; cbn; auto; exists []; rewrite app_nil_r; auto. }
  assert (Y : forall d, ext_at (oplen c0) c0 (set_loop (c_loop c1) d) -> oplen c0 <= oplen d -> forall t, ext_at (oplen c0) c0 (set_loop (c_loop c1) (asm1 O_JMP t d))).
  { intros d Hd Ld t. eapply ext_r; [exact Hd|exact Ld|]. apply (ext_asm1 O_JMP t (set_loop (c_loop c1) d)). }
  assert (Z : forall l t d, ext_at (oplen c0) c0 (set_loop (c_loop c1) d) -> Forall (fun i => oplen c0 <= i) l -> ext_at (oplen c0) c0 (set_loop (c_loop c1) (patch_all l t d))).
  { intros l t d Hd Fl. replace (set_loop (c_loop c1) (patch_all l t d)) with (patch_all l t (set_loop (c_loop c1) d)); [apply ext_patch_all; assumption|].
    unfold patch_all. clear. revert d. induction l; intros; cbn; [reflexivity|]. rewrite <- IHl. reflexivity. }
  eapply ext_t; [|apply ext_reg].
  assert (FB : Forall (fun i => oplen c0 <= i) bs) by (eapply Forall_impl; [|exact kb']; cbn; lia).
  assert (FC : Forall (fun i => oplen c0 <= i) cs) by (eapply Forall_impl; [|exact kc']; cbn; lia).
  apply Z; [|assumption]. apply Z; [|assumption].
  destruct j1 as [j|].
  - match goal with |- ext_at _ _ (set_loop _ (patch_b ?j ?v ?d)) => change (set_loop (c_loop c1) (patch_b j v d)) with (patch_b j v (set_loop (c_loop c1) d)) end.
    apply ext_patch_b; [|apply J; reflexivity]. apply Y; [exact X|lia].
  - apply Y; [exact X|lia].
Qed.
Lemma ext_endfun r c d c1 : ext c d -> ext (mkC (pb0 [] []) (c_f d :: c_up d) (c_tbl d) None) c1 \/
   (exists ps, ext (mkC (pb0 ps ps) (c_f d :: c_up d) (c_tbl d) None) c1) -> ext c (endfun r d c1).
Proof.
  intros H K. assert (exists ps, ext (mkC (pb0 ps ps) (c_f d :: c_up d) (c_tbl d) None) c1) as (ps & [k1 k2 k3 k4 k5 k6 k7 k8 k9 k10 k11 k12]) by (destruct K; eauto).
  clear K. cbn in k8, k7. inversion k8 as [|? f ? up U1 U2 U3 U4]; subst. destruct U1 as (t & ->).
  unfold endfun. rewrite <- U4. eapply ext_t; [|apply ext_captures]. eapply ext_t; [|apply ext_asm2]. eapply ext_t; [exact H|].
  constructor; cbn; auto using pre_refl, pre_app with zarith.
  - unfold vput. destruct (vfind _ _); cbn; auto using pre_refl, pre_app.
  - destruct k7 as (t' & ->). exists (t' ++ [set_code (c_f c1) (b_code (c_f c1) ++ [mkI O_RETURN (sx12 0) (sx12 0)])]). rewrite app_assoc. reflexivity.
  - exists []. rewrite app_nil_r. auto.
  - exists []. rewrite app_nil_r. auto.
Qed.
Lemma ext_break c l : (exists x, fst l = fst (loops c) ++ x /\ Forall (fun i => i = oplen c) x) ->
  (exists x, snd l = snd (loops c) ++ x /\ Forall (fun i => i = oplen c) x) -> ext c (asm1 O_JMP 0 (set_loop (Some l) c)).
Proof.
  intros (x & E & F) (y & E' & F').
  assert (Q : oplen (asm1 O_JMP 0 (set_loop (Some l) c)) = oplen c + 1) by (unfold asm1; rewrite oplen_asm2; reflexivity).
  constructor; try (cbn; auto using pre_refl, chain_refl with zarith; fail).
  - intros i I. unfold code. cbn. rewrite gnth_app1 by exact I. reflexivity.
  - exists x. split; [exact E|]. eapply Forall_impl; [|exact F]. cbn beta. rewrite Q. intros; lia.
  - exists y. split; [exact E'|]. eapply Forall_impl; [|exact F']. cbn beta. rewrite Q. intros; lia.
Qed.

Ltac xlem X := first [eapply ext_t; [|exact X]; xt
                     |eapply ext_t; [|eapply X]; xt]
with xt := lazymatch goal with
  | |- ext ?c ?c => apply ext_start
  | |- ext _ (PN_REG _ _) => eapply ext_t; [|apply ext_reg]; xt
  | |- ext _ (asm2 _ _ _ _) => eapply ext_t; [|apply ext_asm2]; xt
  | |- ext _ (asm1 _ _ _) => eapply ext_t; [|apply ext_asm1]; xt
  | |- ext _ (put_path _ _) => eapply ext_t; [|apply ext_path]; xt
  | |- ext _ (load_value _ _ _) => eapply ext_t; [|apply ext_load]; xt
  | |- ext _ (loadname _ _ _) => eapply ext_t; [|apply ext_loadname]; xt
  | |- ext _ (decl _ _) => eapply ext_t; [|apply ext_decl]; xt
  | |- ext _ (useup _ _) => eapply ext_t; [|apply ext_useup]; xt
  | |- ext _ (patch_b _ _ _) => apply ext_pb; [xt|apply ext_le; xt]
  | |- ext _ (cexp ?e _ _) => match goal with IH : context [cexp e] |- _ => eapply ext_t; [|eapply IH]; xt end
  | |- ext _ (cexps ?e _ _) => match goal with IH : context [cexps e] |- _ => eapply ext_t; [|eapply IH]; xt end
  | |- ext _ (citems ?e _ _) => match goal with IH : context [citems e] |- _ => eapply ext_t; [|eapply IH]; xt end
  | |- ext _ (cargs ?e _ _) => match goal with IH : context [cargs e] |- _ => eapply ext_t; [|eapply IH]; xt end
  | |- ext _ (cclauses ?e _ _) => match goal with IH : context [cclauses e] |- _ => eapply ext_t; [|eapply IH]; xt end
  | |- ext _ ?c1 => match goal with K : ext ?b c1 |- _ => eapply ext_t; [|exact K]; xt end
  end.
Ltac pvx := repeat match goal with |- context [put_value ?n ?c] =>
  let H := fresh "PV" in pose proof (ext_value n c) as H; destruct (put_value n c) as [? ?]; cbn [fst] in H end.

Lemma cexp_ext :
  (forall e r c, ext c (cexp e r c))
  /\ (forall es, (forall r c, ext c (cexps es r c)) /\ (forall r c, ext c (citems es r c)) /\ (forall r c, ext c (cargs es r c)))
  /\ (forall k r c, ext c (cclauses k r c)).
Proof.
  apply exp_ind3; intros; repeat match goal with IH : _ /\ _ |- _ => destruct IH end;
   try (match goal with |- _ /\ _ => repeat apply conj end; intros); cbn [cexp cexps citems cargs cclauses]; cbv zeta; pvx; try xt.
  - destruct post; xt.
  - apply ext_endloop; [xt|match goal with IH : forall r c, ext c (cexps b r c) |- _ => eapply ext_t; [apply ext_reg|apply IH] end|].
    intros j [= <-]. apply ext_le. xt.
  - apply (ext_endloop _ (PN_REG r c)); [xt|match goal with IH : forall r c, ext c (cexps b r c) |- _ => eapply ext_t; [apply ext_reg|apply IH] end|].
    intros j [=].
  - eapply ext_t; [|apply ext_reg]. eapply ext_t; [apply (ext_reg r)|]. apply ext_break; cbn [fst snd]; eexists; (split; [reflexivity + (symmetry; apply app_nil_r)|]); auto.
  - eapply ext_t; [|apply ext_reg]. eapply ext_t; [apply (ext_reg r)|]. apply ext_break; cbn [fst snd]; eexists; (split; [reflexivity + (symmetry; apply app_nil_r)|]); auto.
  - destruct up, k; cbv zeta; pvx; xt.
  - apply ext_endfun; [xt|]. right. exists ps. xt.
Qed.
