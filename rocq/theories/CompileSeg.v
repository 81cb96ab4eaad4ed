(** The table of compiled functions is in post-order: every function's nested functions
    come right before it, in the order of its list of nested functions. *)
From Verif Require Import Base Arr GArr WordModel AsmModel CompileModel VmModel SrcSpec CompileProofs CompileEq CompileExt.
From Coq Require Import ZifyBool.
Ltac Zify.zify_post_hook ::= Z.div_mod_to_equations.

Inductive segs : Z -> list pb -> list Z -> Prop :=
| segs_nil b : segs b [] []
| segs_snoc b t ids t1 f : segs b t ids -> segs (b + zlen t) t1 (b_protos f) ->
    segs b (t ++ t1 ++ [f]) (ids ++ [b + zlen t + zlen t1]).
Lemma segs_app b t ids t' ids' : segs b t ids -> segs (b + zlen t) t' ids' -> segs b (t ++ t') (ids ++ ids').
Proof.
  intros H K. remember (b + zlen t) as b' eqn:E. revert E. induction K as [b'|b' u us u1 f K IH K1 _]; intros E.
  - rewrite !app_nil_r. exact H.
  - subst b'. rewrite !app_assoc. rewrite <- (app_assoc _ u1). replace (b + zlen t + zlen u + zlen u1) with (b + zlen (t ++ u) + zlen u1) by (rewrite zlen_app; lia).
    apply segs_snoc; [apply IH; reflexivity|]. rewrite zlen_app. replace (b + (zlen t + zlen u)) with (b + zlen t + zlen u) by lia. exact K1.
Qed.
Lemma segs_ids b t ids : segs b t ids -> Forall (fun i => b <= i < b + zlen t) ids.
Proof.
  induction 1; [constructor|]. rewrite !zlen_app. change (zlen [f]) with 1. apply Forall_app.
  pose proof (zlen_nonneg t). pose proof (zlen_nonneg t1). split; [eapply Forall_impl; [|exact IHsegs1]; cbn; lia|].
  constructor; [lia | constructor].
Qed.

(** instructions whose operands fit their 12 bits *)
Definition ok12 (i : instr) : Prop := -2048 <= ia i < 2048 /\ -2048 <= ib i < 2048.
Definition okpb (f : pb) : Prop := Forall ok12 (b_code f) /\ 1 <= b_stack f.
Lemma sx12_range x : -2048 <= sx12 x < 2048. Proof. unfold sx12. lia. Qed.

(** what using an upvalue leaves of an enclosing function *)
Definition core (f : pb) : list Z * list instr * Z := (b_protos f, b_code f, b_stack f).
Definition inv (c : cst) : Prop :=
  Forall (fun f => Forall (fun i => 0 <= i < zlen (c_tbl c)) (b_protos f)) (c_f c :: c_up c) /\ okpb (c_f c).
Definition grow (c c' : cst) : Prop :=
  inv c -> okpb (c_f c') /\ (exists t ids, c_tbl c' = c_tbl c ++ t /\ b_protos (c_f c') = b_protos (c_f c) ++ ids
    /\ segs (zlen (c_tbl c)) t ids /\ Forall okpb t) /\ map core (c_up c') = map core (c_up c).
Lemma grow_inv c c' : grow c c' -> inv c -> inv c'.
Proof.
  intros G I. destruct (G I) as (O & (t & ids & T & B & S & _) & U). destruct I as [I _]. split; [|exact O].
  apply Forall_cons_iff in I. destruct I as [I1 I2]. pose proof (zlen_nonneg t).
  constructor.
  - rewrite T, B, zlen_app. apply Forall_app. split; [eapply Forall_impl; [|exact I1]; cbn; lia|].
    eapply Forall_impl; [|apply (segs_ids _ _ _ S)]. cbn. pose proof (zlen_nonneg (c_tbl c)). lia.
  - rewrite T, zlen_app. clear - I2 U H. revert I2 U. generalize (c_up c). induction (c_up c') as [|f l IH]; intros [|g l'] I2 U; try discriminate U; constructor.
    + cbn in U. injection U as U1 _ _ U2. rewrite U1. apply Forall_cons_iff in I2. destruct I2 as [I2 _]. eapply Forall_impl; [|exact I2]. cbn. lia.
    + cbn in U. injection U as U1 _ _ U2. apply Forall_cons_iff in I2. destruct I2 as [_ I2]. exact (IH l' I2 U2).
Qed.
Lemma grow_t a b c : grow a b -> grow b c -> grow a c.
Proof.
  intros G K I. pose proof (grow_inv _ _ G I) as I'. destruct (G I) as (_ & (t & ids & T & B & S & F) & U). destruct (K I') as (O' & (t' & ids' & T' & B' & S' & F') & U').
  split; [exact O'|]. split; [|congruence]. exists (t ++ t'), (ids ++ ids'). rewrite T', T, B', B, !app_assoc. repeat split.
  - apply segs_app; [exact S|]. rewrite T, zlen_app in S'. exact S'.
  - apply Forall_app. auto.
Qed.
(** a step that leaves the functions alone *)
Lemma grow_same c c' : c_tbl c' = c_tbl c -> b_protos (c_f c') = b_protos (c_f c) -> map core (c_up c') = map core (c_up c) ->
  (okpb (c_f c) -> okpb (c_f c')) -> grow c c'.
Proof.
  intros T B U O [I1 I2]. split; [auto|]. split; [|exact U]. exists [], []. rewrite !app_nil_r. split; [exact T|]. split; [exact B|]. split; [apply segs_nil | constructor].
Qed.
Lemma grow_start c : grow c c. Proof. apply grow_same; auto. Qed.
Lemma grow_reg r c : grow c (PN_REG r c).
Proof.
  apply grow_same; try reflexivity; unfold PN_REG, onf; cbn; destruct (_ <=? _) eqn:E; try reflexivity; auto.
  intros [A B]. split; [exact A|]. cbn. lia.
Qed.
Lemma grow_asm2 o a b c : grow c (asm2 o a b c).
Proof.
  apply grow_same; try reflexivity. intros [A B]. split; [|exact B]. cbn. apply Forall_app. split; [exact A|]. constructor; [|constructor].
  split; apply sx12_range.
Qed.
Lemma grow_asm1 o a c : grow c (asm1 o a c). Proof. apply grow_asm2. Qed.
Lemma grow_value v c : grow c (fst (put_value v c)).
Proof. unfold put_value, vput. destruct (vfind _ _); apply grow_same; cbn; auto. Qed.
Lemma grow_path v c : grow c (put_path v c).
Proof. unfold put_path. apply grow_same; cbn; auto. Qed.
Lemma grow_decl v c : grow c (decl v c).
Proof. unfold decl, put_local, vput. destruct (vfind _ _); apply grow_same; cbn; auto. Qed.
Lemma push_first_protos k x l : map core (push_first k x l) = map core l.
Proof. revert l. induction k; intros [|f l]; cbn; [reflexivity..|]. rewrite IHk. reflexivity. Qed.
Lemma grow_useup x c : grow c (useup x c).
Proof.
  unfold useup, PN_UPVAL. destruct (vfind (b_locals _) _); [apply grow_start|]. destruct (vfind (b_upvals _) _); [apply grow_start|].
  destruct (find_owner _ _); [|apply grow_start]. cbn [fst]. apply grow_same; cbn; auto using push_first_protos.
Qed.
Lemma grow_load v r c : grow c (load_value v r c).
Proof.
  unfold load_value. destruct (_ && _); [apply grow_asm2|]. pose proof (grow_value v c) as K. destruct (put_value v c) as [c1 k]. cbn [fst] in K.
  eapply grow_t; [exact K | apply grow_asm2].
Qed.
Lemma grow_loadname n r c : grow c (loadname r n c).
Proof.
  unfold loadname. pose proof (grow_value n c) as K. destruct (put_value n c) as [c1 k]. cbn [fst] in K.
  eapply grow_t; [exact K | apply grow_asm2].
Qed.
Lemma grow_captures us r c : grow c (captures us r c).
Proof.
  revert c. induction us as [|u us IH]; intros c; cbn; [apply grow_start|]. destruct (vfind _ _); (eapply grow_t; [apply grow_asm2 | apply IH]).
Qed.
Lemma seti_ok l j g : (forall i, ok12 i -> ok12 (g i)) -> Forall ok12 l -> Forall ok12 (seti l j g).
Proof.
  intros G F. unfold seti. destruct (gnth l j) as [x|] eqn:E; [|exact F]. rewrite Forall_forall in *. intros y Y.
  apply In_nth_error in Y. destruct Y as [n Y]. pose proof (gnth_Some _ _ _ E) as R.
  assert (Q : gnth (gupd l j (g x)) (Z.of_nat n) = Some y) by (unfold gnth; replace (Z.of_nat n <? 0) with false by lia; rewrite Nat2Z.id; exact Y).
  assert (EX : In x l) by (unfold gnth in E; destruct (j <? 0); [discriminate|]; eapply nth_error_In; exact E).
  destruct (Z.eq_dec (Z.of_nat n) j) as [EJ | NJ].
  - rewrite EJ, gnth_gupd_same in Q by exact R. injection Q as <-. apply G, F, EX.
  - rewrite gnth_gupd_other in Q by congruence. apply F. unfold gnth in Q. destruct (_ <? 0); [discriminate|]. eapply nth_error_In. exact Q.
Qed.
Lemma grow_patch_b j v c : grow c (patch_b j v c).
Proof.
  apply grow_same; try reflexivity. intros [A B]. split; [|exact B]. cbn. apply seti_ok; [|exact A]. intros i [X Y]. split; cbn; [exact X | apply sx12_range].
Qed.
Lemma grow_patch_a j v c : grow c (patch_a j v c).
Proof.
  apply grow_same; try reflexivity. intros [A B]. split; [|exact B]. cbn. apply seti_ok; [|exact A]. intros i [X Y]. split; cbn; [apply sx12_range | exact Y].
Qed.
Lemma grow_patch_all l v c : grow c (patch_all l v c).
Proof. unfold patch_all. revert c. induction l; intros c; cbn; [apply grow_start|]. eapply grow_t; [apply grow_patch_a | apply IHl]. Qed.
Lemma grow_loop l c : grow c (set_loop l c). Proof. apply grow_same; auto. Qed.
Lemma grow_endloop j2 j1 o r c : grow c (endloop j2 j1 o r c).
Proof.
  unfold endloop. cbv zeta. eapply grow_t; [|apply grow_reg]. eapply grow_t; [|apply grow_loop]. eapply grow_t; [|apply grow_patch_all]. eapply grow_t; [|apply grow_patch_all].
  destruct j1; [eapply grow_t; [|apply grow_patch_b]|]; apply grow_asm1.
Qed.
Lemma vfind_none l x : ~ In x l -> vfind l x = None.
Proof.
  intros N. destruct (vfind l x) as [i|] eqn:E; [|reflexivity]. exfalso. apply N. revert i E. induction l as [|y l IH]; intros i E; [discriminate|].
  cbn in E. destruct (y =? x) eqn:Y; [left; lia|]. right. destruct (vfind l x) as [j|] eqn:F; [|discriminate]. apply (IH ltac:(intros Q; apply N; right; exact Q) j eq_refl).
Qed.
Lemma grow_endfun r c ps c1 : grow (mkC (pb0 ps ps) (c_f c :: c_up c) (c_tbl c) None) c1 -> grow c (endfun r c c1).
Proof.
  intros K I.
  assert (I' : inv (mkC (pb0 ps ps) (c_f c :: c_up c) (c_tbl c) None)).
  { destruct I as [I1 I2]. split; [|split; [constructor | cbn; lia]]. cbn. constructor; [constructor | exact I1]. }
  destruct (K I') as (O & (t & ids & T & B & S & F) & U). cbn in T, B, S, U.
  destruct (c_up c1) as [|f up] eqn:CU; [discriminate U|]. cbn in U. injection U as U1 U3 U4 U2.
  unfold endfun. rewrite CU.
  set (g := c_f (asm1 O_RETURN 0 c1)).
  assert (OG : okpb g) by (destruct (grow_asm1 O_RETURN 0 c1 (grow_inv _ _ K I')); assumption).
  assert (PG : b_protos g = ids) by exact B.
  assert (NV : vfind (b_protos f) (zlen (c_tbl c1)) = None).
  { apply vfind_none. rewrite U1, T, zlen_app. intros Q. destruct I as [I1 _]. apply Forall_cons_iff in I1. destruct I1 as [I1 _].
    rewrite Forall_forall in I1. specialize (I1 _ Q). cbn in I1. pose proof (zlen_nonneg t). lia. }
  assert (VP : vput (b_protos f) (zlen (c_tbl c1)) = (b_protos f ++ [zlen (c_tbl c1)], zlen (b_protos f))) by (unfold vput; rewrite NV; reflexivity).
  rewrite VP. cbn [fst snd]. clearbody g.
  pose proof (zlen_nonneg t). pose proof (zlen_nonneg (c_tbl c)).
  match goal with |- okpb (c_f (captures ?us _ (asm2 ?o _ ?b ?d))) /\ _ => set (d1 := d); set (d2 := asm2 o r b d1) end.
  assert (G1 : grow d1 (captures (b_upvals g) r d2)) by (eapply grow_t; [apply grow_asm2 | apply grow_captures]).
  assert (I1 : inv d1).
  { destruct I as [I1 [I2 I3]]. apply Forall_cons_iff in I1. destruct I1 as [I1 I1']. split.
    - unfold d1. cbn. rewrite T, !zlen_app, !zlen_cons. change (zlen (@nil pb)) with 0. constructor.
      + cbn. rewrite U1. apply Forall_app. split; [eapply Forall_impl; [|exact I1]; cbn; lia|]. constructor; [rewrite ?T, ?zlen_app; lia | constructor].
      + clear - I1' U2 H. revert I1' U2. generalize (c_up c). induction up as [|x l IH]; intros [|y l'] I2 U; try discriminate U; constructor.
        * cbn in U. injection U as Ua _ _ Ub. rewrite Ua. apply Forall_cons_iff in I2. destruct I2 as [I2 _]. eapply Forall_impl; [|exact I2]. cbn. lia.
        * cbn in U. injection U as Ua _ _ Ub. apply Forall_cons_iff in I2. destruct I2 as [_ I2]. exact (IH l' I2 Ub).
    - unfold d1. split; cbn; [rewrite U3; exact I2 | rewrite U4; exact I3]. }
  destruct (G1 I1) as (O1 & (t1 & ids1 & T1 & B1 & S1 & F1) & V1). unfold d1 in T1, B1, S1, V1. cbn in T1, B1, S1, V1.
  split; [exact O1|]. split; [|rewrite V1; exact U2].
  exists ((t ++ [g]) ++ t1), ([zlen (c_tbl c) + 0 + zlen t] ++ ids1). rewrite T1, T, B1, U1, !app_assoc. split; [reflexivity|]. split.
  { rewrite T, zlen_app, Z.add_0_r, <- !app_assoc. reflexivity. }
  split.
  - apply segs_app.
    + change (t ++ [g]) with ([] ++ t ++ [g]). change 0 with (zlen (@nil pb)). apply (segs_snoc (zlen (c_tbl c)) [] [] t g); [apply segs_nil|].
      change (zlen (@nil pb)) with 0. rewrite Z.add_0_r, PG. exact S.
    + rewrite T, !zlen_app in S1. rewrite zlen_app. replace (zlen (c_tbl c) + (zlen t + zlen [g])) with (zlen (c_tbl c) + zlen t + zlen [g]) by lia. exact S1.
  - apply Forall_app. split; [apply Forall_app; split; [exact F | constructor; [exact OG | constructor]] | exact F1].
Qed.

Ltac gt := lazymatch goal with
  | |- grow ?c ?c => apply grow_start
  | |- grow _ (PN_REG _ _) => eapply grow_t; [|apply grow_reg]; gt
  | |- grow _ (asm2 _ _ _ _) => eapply grow_t; [|apply grow_asm2]; gt
  | |- grow _ (asm1 _ _ _) => eapply grow_t; [|apply grow_asm1]; gt
  | |- grow _ (put_path _ _) => eapply grow_t; [|apply grow_path]; gt
  | |- grow _ (load_value _ _ _) => eapply grow_t; [|apply grow_load]; gt
  | |- grow _ (loadname _ _ _) => eapply grow_t; [|apply grow_loadname]; gt
  | |- grow _ (decl _ _) => eapply grow_t; [|apply grow_decl]; gt
  | |- grow _ (useup _ _) => eapply grow_t; [|apply grow_useup]; gt
  | |- grow _ (patch_b _ _ _) => eapply grow_t; [|apply grow_patch_b]; gt
  | |- grow _ (set_loop _ _) => eapply grow_t; [|apply grow_loop]; gt
  | |- grow _ (endloop _ _ _ _ _) => eapply grow_t; [|apply grow_endloop]; gt
  | |- grow _ (cexp ?e _ _) => match goal with IH : context [cexp e] |- _ => eapply grow_t; [|eapply IH]; gt end
  | |- grow _ (cexps ?e _ _) => match goal with IH : context [cexps e] |- _ => eapply grow_t; [|eapply IH]; gt end
  | |- grow _ (citems ?e _ _) => match goal with IH : context [citems e] |- _ => eapply grow_t; [|eapply IH]; gt end
  | |- grow _ (cargs ?e _ _) => match goal with IH : context [cargs e] |- _ => eapply grow_t; [|eapply IH]; gt end
  | |- grow _ (cclauses ?e _ _) => match goal with IH : context [cclauses e] |- _ => eapply grow_t; [|eapply IH]; gt end
  | |- grow _ ?c1 => match goal with K : grow ?b c1 |- _ => eapply grow_t; [|exact K]; gt end
  end.
Ltac pvg := repeat match goal with |- context [put_value ?n ?c] =>
  let H := fresh "PV" in pose proof (grow_value n c) as H; destruct (put_value n c) as [? ?]; cbn [fst] in H end.
Lemma cexp_grow :
  (forall e r c, grow c (cexp e r c))
  /\ (forall es, (forall r c, grow c (cexps es r c)) /\ (forall r c, grow c (citems es r c)) /\ (forall r c, grow c (cargs es r c)))
  /\ (forall k r c, grow c (cclauses k r c)).
Proof.
  apply exp_ind3; intros; repeat match goal with IH : _ /\ _ |- _ => destruct IH end;
   try (match goal with |- _ /\ _ => repeat apply conj end; intros); cbn [cexp cexps citems cargs cclauses]; cbv zeta; pvg; try gt.
  - destruct post; gt.
  - destruct up, k; cbv zeta; pvg; gt.
  - eapply grow_t; [apply grow_reg|]. apply (grow_endfun r (PN_REG r c) ps). gt.
Qed.
(** the whole table of a program *)
Lemma program_segs chr0 k es L m t : wf_all (isupper chr0) [] false [] es = Some L -> need_all es <= 255 ->
  source_compile chr0 k (program es) = Ok (m, t) ->
  segs 0 t (b_protos m) /\ Forall okpb (t ++ [m]).
Proof.
  intros WF ND SC. destruct (source_compile_eq chr0 k es L m t WF ND SC) as [E1 E2].
  assert (G : grow (mkC (pb0 [] []) [] [] None) (cprog es)).
  { unfold cprog. eapply grow_t; [|apply grow_asm1]. eapply grow_t; [apply grow_reg|]. apply cexp_grow. }
  destruct G as (O & (t' & ids & T & B & S & F) & _).
  { split; [repeat constructor | split; [constructor | cbn; lia]]. }
  cbn [c_tbl c_f pb0 b_protos app] in T, B, S. subst m t. rewrite B, T. split; [exact S|]. apply Forall_app. auto.
Qed.
