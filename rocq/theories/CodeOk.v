(** The operands of the code the compiler emits. *)
From Verif Require Import Base Arr GArr WordModel AsmModel CompileModel VmModel SrcSpec CompileProofs CompileEq CompileExt CodeGen GenLem Capt GenOk GenOk2 SimStep SimTop.
From Coq Require Import ZifyBool.
Ltac Zify.zify_post_hook ::= Z.div_mod_to_equations.

(** what an instruction may mention: registers of the frame, constants, variables,
    nested functions that exist, and jump targets inside the code *)
Definition instr_ok (g : pb) (i : Z) (x : instr) : Prop :=
  let reg r := 0 <= r < b_stack g in
  let target t := 0 <= t < zlen (b_code g) in
  let a := ia x in let b := ib x in
  match ic x with
  | O_JMP => target (i + 1 + a)
  | O_TESTJMP | O_NOTJMP => reg a /\ target (i + 1 + b)
  | O_LOADK => reg a /\ 0 <= b < zlen (b_values g)
  | O_GETLOCAL | O_SETLOCAL => reg a /\ 0 <= b < zlen (b_locals g)
  | O_GETUPVAL | O_SETUPVAL => reg a /\ 0 <= b < zlen (b_upvals g)
  | O_PROTO => reg a /\ 0 <= b < zlen (b_protos g)
  | O_LOADPN | O_SELF | O_NEWTUPLE | O_RETURN => reg a
  | O_GETTUPLE => reg a /\ (0 <= b < 1024 \/ reg (b - 1024))
  | O_CALL => 0 <= a < b /\ b < b_stack g
  | O_SETPATH => 0 <= a /\ a + 2 <= b /\ b < b_stack g
  | _ => reg a /\ reg b
  end.

Section Ok.
Context (tbl : list pb) (g : pb) (SM : small g).
Let n := zlen (b_code g).
Definition allok (l : list instr) (pos : Z) : Prop := forall i x, gnth l i = Some x -> instr_ok g (pos + i) x.
Lemma ok_nil pos : allok [] pos.
Proof. intros i x E. unfold gnth in E. destruct (i <? 0); [discriminate|]. destruct (Z.to_nat i); discriminate. Qed.
Lemma ok_app l1 l2 pos : allok l1 pos -> allok l2 (pos + zlen l1) -> allok (l1 ++ l2) pos.
Proof.
  intros A B i x E. destruct (Z.lt_ge_cases i (zlen l1)).
  - rewrite gnth_app1 in E by lia. auto.
  - rewrite gnth_app2 in E by lia. apply B in E. replace (pos + zlen l1 + (i - zlen l1)) with (pos + i) in E by lia. exact E.
Qed.
Lemma ok_cons y l pos : instr_ok g pos y -> allok l (pos + 1) -> allok (y :: l) pos.
Proof.
  intros A B. change (y :: l) with ([y] ++ l). apply ok_app; [|exact B].
  intros j x E. assert (j = 0) by (apply gnth_Some in E; unfold zlen in E; cbn [length] in E; lia). subst j. injection E as <-. rewrite Z.add_0_r. exact A.
Qed.
Lemma ok_pos l p q : allok l p -> p = q -> allok l q.
Proof. intros A <-. exact A. Qed.
Lemma idx_range l x : inl_ l x -> 0 <= idx l x < zlen l.
Proof. intros (i & V). unfold idx. rewrite V. apply vfind_range in V. lia. Qed.
Lemma ok_I o a b pos : -2048 <= a < 2048 -> -2048 <= b < 2048 -> instr_ok g pos (mkI o a b) -> instr_ok g pos (I o a b).
Proof. intros A B K. unfold I. rewrite !sx12_small by assumption. exact K. Qed.
Lemma ok_loadpn r b pos : 0 <= r < b_stack g -> instr_ok g pos (I O_LOADPN r b).
Proof. intros R. destruct SM as (_ & _ & _ & _ & _ & S6). unfold I. rewrite (sx12_small r) by lia. cbn. exact R. Qed.

Lemma ok_capi r x pos : 0 <= r < b_stack g -> inl_ (b_upvals g) x \/ inl_ (b_locals g) x -> instr_ok g pos (capi g r x).
Proof.
  intros R K. destruct SM as (_ & _ & S3 & S4 & _ & S6). unfold capi. destruct (vfind (b_upvals g) x) as [m|] eqn:V.
  - pose proof (vfind_range _ _ _ V). apply ok_I; try lia. split; cbn; lia.
  - destruct K as [(m & V')|K]; [congruence|]. pose proof (idx_range _ _ K). unfold lx. apply ok_I; try lia. split; cbn; lia.
Qed.
Lemma ok_caps r xs pos : 0 <= r < b_stack g -> (forall x, In x xs -> inl_ (b_upvals g) x \/ inl_ (b_locals g) x) -> allok (map (capi g r) xs) pos.
Proof.
  intros R. revert pos. induction xs as [|x xs IH]; intros pos K; [apply ok_nil|]. cbn [map]. apply ok_cons; [apply ok_capi; [exact R|apply K; left; reflexivity]|].
  apply IH. intros y Y. apply K. right. exact Y.
Qed.

Ltac zl := repeat (rewrite zlen_app || rewrite zlen_cons || rewrite zlen_nil || rewrite zlen_map || rewrite (proj1 (zlen_gen tbl g))
   || rewrite (proj1 (proj1 (proj2 (zlen_gen tbl g)) _)) || rewrite (proj1 (proj2 (proj1 (proj2 (zlen_gen tbl g)) _)))
   || rewrite (proj2 (proj2 (proj1 (proj2 (zlen_gen tbl g)) _))) || rewrite (proj2 (proj2 (zlen_gen tbl g)))).
Lemma elen_nonneg es : 0 <= elen es.
Proof. induction es; cbn [elen]; lia. Qed.
Definition okat (sz nd r pos tb tc : Z) : Prop :=
  0 <= pos /\ pos + sz < n /\ 0 <= tb < n /\ 0 <= tc < n /\ 0 <= r /\ r + nd < b_stack g.
Lemma gen_ok :
  (forall e r pos tb tc, gok tbl g e -> okat (size tbl e) (need e) r pos tb tc -> allok (gen tbl g e r pos tb tc) pos)
  /\ (forall es,
       (forall r pos tb tc, gok_all tbl g es -> okat (size_all tbl es) (need_all es) r pos tb tc -> allok (gens tbl g es r pos tb tc) pos)
    /\ (forall r pos tb tc, gok_all tbl g es -> okat (size_items tbl es) (need_items es) r pos tb tc -> allok (geni tbl g es r pos tb tc) pos)
    /\ (forall r pos tb tc, gok_all tbl g es -> okat (size_all tbl es) (need_args es) r pos tb tc -> allok (gena tbl g es r pos tb tc) pos))
  /\ (forall k r pos tb tc, gok_clauses tbl g k -> okat (size_clauses tbl k) (need_clauses k) r pos tb tc -> allok (genk tbl g k r pos tb tc) pos).
Proof.
  pose proof SM as (S1 & S2 & S3 & S4 & S5 & S6). fold n in S1.
  apply exp_ind3; repeat match goal with |- forall _, _ => intro end; repeat match goal with IH : _ /\ _ |- _ => destruct IH end.
  all: try (match goal with |- _ /\ _ => split; [|split] end; repeat match goal with |- forall _, _ => intro end).
  all: match goal with K : okat _ _ _ _ _ _ |- _ => unfold okat in K; autorewrite with csize in K; cbn [need need_all need_items need_args need_clauses] in K;
         destruct K as (K1 & K2 & K3 & K4 & K5 & K6) end.
  all: try match goal with K : gok _ _ _ |- _ => autorewrite with cgok in K end.
  all: try match goal with K : gok_all _ _ _ |- _ => autorewrite with cgok in K end.
  all: try match goal with K : gok_clauses _ _ _ |- _ => autorewrite with cgok in K end.
  all: autorewrite with cgen; cbv zeta.
  all: repeat match goal with e : exp |- _ => lazymatch goal with _ : 0 <= need e |- _ => fail | _ => pose proof (proj1 need_nonneg e); pose proof (proj1 (size_pos tbl g) e) end end.
  all: repeat match goal with es : exps |- _ => lazymatch goal with _ : 0 <= need_all es /\ _ |- _ => fail | _ => pose proof (proj1 (proj2 need_nonneg) es); pose proof (proj1 (proj2 (size_pos tbl g)) es) end end.
  all: repeat match goal with k : clauses |- _ => lazymatch goal with _ : 0 <= need_clauses k |- _ => fail | _ => pose proof (proj2 (proj2 need_nonneg) k); pose proof (proj2 (proj2 (size_pos tbl g)) k) end end.
  all: repeat match goal with K : _ /\ _ |- _ => destruct K end.
  all: repeat match goal with K : inl_ _ _ |- _ => apply idx_range in K end.
  all: try match goal with |- context [if ?post then _ else _] => is_var post; destruct post end.
  all: cbn [app]; unfold kx, lx, ux, px in *.
  all: repeat match goal with |- allok (_ ++ _) _ => apply ok_app | |- allok (_ :: _) _ => apply ok_cons | |- allok [] _ => apply ok_nil end.
  all: try (match goal with |- instr_ok _ _ _ => apply ok_loadpn || apply ok_I end; cbn; unfold n in *; zl; lia).
  all: try (match goal with IH : forall r pos tb tc, _ -> _ -> allok (?f _ _ ?e r pos tb tc) pos |- allok (?f _ _ ?e _ _ _ _) _ =>
      eapply ok_pos; [apply IH; [assumption|unfold okat, n in *; zl; lia]|zl; lia] end).
  - destruct (imm v); [apply ok_loadpn; lia|]. specialize (H eq_refl). apply idx_range in H. apply ok_I; cbn; lia.
  - destruct p; try discriminate; apply ok_I; cbn; zl; lia.
  - pose proof (elen_nonneg es). apply ok_I; cbn; zl; lia.
  - pose proof (elen_nonneg es). apply ok_I; cbn; zl; lia.
  - pose proof (elen_nonneg es). apply ok_I; cbn; zl; lia.
  - pose proof (elen_nonneg es). apply ok_I; cbn; zl; lia.
  - pose proof (elen_nonneg es). apply ok_I; cbn; zl; lia.
  - pose proof (elen_nonneg es). apply ok_I; cbn; zl; lia.
  - cbv iota in *; destruct k; apply ok_I; cbn; lia.
  - cbv iota in *; destruct k; try match goal with K : inl_ _ _ |- _ => apply idx_range in K end;
      rewrite ?(lor_imm (r + 1)) by lia; repeat match goal with |- allok (_ :: _) _ => apply ok_cons | |- allok [] _ => apply ok_nil end;
      match goal with |- instr_ok _ _ _ => apply ok_I; cbn; zl; lia end.
  - cbv iota in *; destruct k; apply ok_I; cbn; lia.
  - cbv iota in *; destruct k; try match goal with K : inl_ _ _ |- _ => apply idx_range in K end;
      rewrite ?(lor_imm (r + 1)) by lia; repeat match goal with |- allok (_ :: _) _ => apply ok_cons | |- allok [] _ => apply ok_nil end;
      match goal with |- instr_ok _ _ _ => apply ok_I; cbn; zl; lia end.
  - apply ok_caps; [lia|assumption].
Qed.
Lemma fun_code_ok l ps b : gnth tbl l = Some g -> fun_ok tbl (l, (ps, b)) ->
  (forall i x, gnth (b_code g) i = Some x -> instr_ok g i x) /\ gnth (b_code g) (n - 1) = Some (mkI O_RETURN 0 0).
Proof.
  intros G (g' & G' & HS & ZC & GK & ND & _). rewrite G in G'. injection G' as <-. fold n in ZC.
  pose proof SM as (S1 & _). fold n in S1. pose proof (proj1 (proj1 (proj2 need_nonneg) b)) as NN. pose proof (proj1 (proj1 (proj2 (size_pos tbl g)) b)) as SP.
  pose proof (proj1 (proj1 (proj2 gen_ok) b) 0 0 0 0 GK) as A. unfold okat in A. specialize (A ltac:(lia)).
  apply has_app_inv in HS. destruct HS as (H1 & H2). rewrite (proj1 (proj1 (proj2 (zlen_gen tbl g)) b)) in H2. rewrite Z.add_0_l in H2.
  apply has_cons_inv in H2. destruct H2 as (H2 & _). assert (R : gnth (b_code g) (size_all tbl b) = Some (mkI O_RETURN 0 0)) by exact H2. clear H2.
  replace (n - 1) with (size_all tbl b) by lia. split; [|exact R]. intros i x X.
  pose proof (gnth_Some _ _ _ X) as RG. fold n in RG. destruct (Z.eq_dec i (size_all tbl b)) as [->|D]; [rewrite R in X; injection X as <-; cbn; lia|].
  destruct (gnth (gens tbl g b 0 0 0 0) i) as [y|] eqn:Y.
  - pose proof (H1 _ _ Y) as Z1. rewrite Z.add_0_l in Z1. rewrite X in Z1. injection Z1 as <-. exact (A _ _ Y).
  - exfalso. destruct (gnth_in (gens tbl g b 0 0 0 0) i) as (y & Q); [zl; lia|congruence].
Qed.
End Ok.

Theorem code_ok chr0 k es L' n' m t : wf_all (isupper chr0) [] false [] es = Some L' -> lab_all 0 es = Some n' -> need_all es <= 255 ->
  source_compile chr0 k (program es) = Ok (m, t) -> forall g, In g (t ++ [m]) -> small g ->
  (forall i x, gnth (b_code g) i = Some x -> instr_ok g i x) /\ gnth (b_code g) (zlen (b_code g) - 1) = Some (mkI O_RETURN 0 0).
Proof.
  intros WF LB ND SC g IN SM. destruct (source_compile_eq chr0 k es L' m t WF ND SC) as (-> & ->).
  destruct (compiled _ _ _ _ WF LB) as (MI & GM & UM & FM & FK). change (c_tbl (cprog es) ++ [c_f (cprog es)]) with (ptbl es) in *.
  assert (exists l, gnth (ptbl es) l = Some g) as (l & G).
  { apply In_nth_error in IN. destruct IN as (j & J). exists (Z.of_nat j). unfold gnth. replace (Z.of_nat j <? 0) with false by lia. rewrite Nat2Z.id. exact J. }
  destruct (Z.eq_dec l (main_id es)) as [->|D]; [eapply fun_code_ok; eassumption|].
  destruct (proj1 (proj1 (proj2 lab_cover) es) _ _ LB) as (N0 & CV).
  pose proof (gnth_Some _ _ _ G) as R. unfold ptbl in R. rewrite zlen_snoc in R. unfold main_id in *.
  destruct (proj1 (in_map_iff _ _ _) (CV l ltac:(lia))) as ((l2 & (ps & b)) & Q & IN2). cbn in Q. subst l2.
  eapply fun_code_ok; [exact SM|exact G|apply FK, IN2].
Qed.
