(** Bookkeeping about the structural compiler: pending jumps, code lengths,
    registers, upvalue chains. *)
From Verif Require Import Base Arr GArr WordModel AsmModel CompileModel VmModel SrcSpec CompileProofs CompileEq CompileExt CodeGen.
From Coq Require Import ZifyBool.
Ltac Zify.zify_post_hook ::= Z.div_mod_to_equations.

Lemma zlen_snoc {A} (l : list A) x : zlen (l ++ [x]) = zlen l + 1.
Proof. rewrite zlen_app. reflexivity. Qed.
(** ** pending break / continue jumps *)
Definition lok (c : cst) : Prop := forall i, memb i (fst (loops c)) = true \/ memb i (snd (loops c)) = true ->
  i < oplen c /\ gnth (code c) i = Some (mkI O_JMP 0 0).
Definition fr (j : Z) (c : cst) : Prop := memb j (fst (loops c)) = false /\ memb j (snd (loops c)) = false.
Lemma memb_Forall_ge (l : list Z) n m i : Forall (fun i => n <= i < m) l -> i < n -> memb i l = false.
Proof.
  intros F L. destruct (memb i l) eqn:E; [|reflexivity]. apply memb_In in E. rewrite Forall_forall in F. apply F in E. lia.
Qed.
Lemma ext_memb c c' i : ext c c' -> i < oplen c ->
  memb i (fst (loops c')) = memb i (fst (loops c)) /\ memb i (snd (loops c')) = memb i (snd (loops c)).
Proof.
  intros [] L. destruct x_bs as (bs & E & F), x_cs as (cs & E' & F'). rewrite E, E', !memb_app.
  rewrite (memb_Forall_ge _ _ _ _ F L), (memb_Forall_ge _ _ _ _ F' L), !orb_false_r. auto.
Qed.
Lemma lok_keep c c' : lok c -> ext c c' -> loops c' = loops c -> lok c'.
Proof.
  intros K X E i D. rewrite E in D. destruct (K i D) as (A & B). destruct X. split; [lia|]. rewrite x_code by lia. exact B.
Qed.
Lemma fr_now c : lok c -> fr (oplen c) c.
Proof.
  intros K. unfold fr.
  destruct (memb (oplen c) (fst (loops c))) eqn:E1; [destruct (K _ (or_introl E1)); lia|].
  destruct (memb (oplen c) (snd (loops c))) eqn:E2; [destruct (K _ (or_intror E2)); lia|]. auto.
Qed.
Lemma fr_ext j c c' : fr j c -> ext c c' -> j < oplen c -> fr j c'.
Proof. intros (A & B) X L. destruct (ext_memb _ _ _ X L) as (E1 & E2). unfold fr. rewrite E1, E2. auto. Qed.
Lemma fr_asm o a b c1 c3 : lok c1 -> ext (asm2 o a b c1) c3 -> fr (oplen c1) c3.
Proof. intros K X. eapply fr_ext; [apply (fr_now c1 K : fr (oplen c1) (asm2 o a b c1))|exact X|]. rewrite oplen_asm2. lia. Qed.
Lemma lok_pb j v c : lok c -> fr j c -> lok (patch_b j v c).
Proof.
  intros K (F1 & F2) i D. change (loops (patch_b j v c)) with (loops c) in D. destruct (K i D) as (A & B).
  rewrite oplen_patch_b. split; [exact A|]. unfold code, patch_b, onf. cbn. rewrite seti_other; [exact B|].
  intros ->. destruct D as [D|D]; congruence.
Qed.
Lemma fr_pb i j v c : fr i c -> fr i (patch_b j v c).
Proof. exact (fun H => H). Qed.
Lemma lok_reg r c : lok c -> lok (PN_REG r c). Proof. intros K. eapply lok_keep; [exact K|apply ext_reg|reflexivity]. Qed.
Lemma lok_asm2 o a b c : lok c -> lok (asm2 o a b c). Proof. intros K. eapply lok_keep; [exact K|apply ext_asm2|reflexivity]. Qed.
Lemma lok_asm1 o a c : lok c -> lok (asm1 o a c). Proof. apply lok_asm2. Qed.
Lemma loops_value v c : loops (fst (put_value v c)) = loops c.
Proof. unfold put_value. destruct (vput _ _); reflexivity. Qed.
Lemma lok_value v c : lok c -> lok (fst (put_value v c)). Proof. intros K. eapply lok_keep; [exact K|apply ext_value|apply loops_value]. Qed.
Lemma lok_path v c : lok c -> lok (put_path v c). Proof. intros K. eapply lok_keep; [exact K|apply ext_path|reflexivity]. Qed.
Lemma loops_load v r c : loops (load_value v r c) = loops c.
Proof. unfold load_value. destruct (_ && _); [reflexivity|]. pose proof (loops_value v c) as E. destruct (put_value v c). exact E. Qed.
Lemma lok_load v r c : lok c -> lok (load_value v r c). Proof. intros K. eapply lok_keep; [exact K|apply ext_load|apply loops_load]. Qed.
Lemma loops_loadname v r c : loops (loadname v r c) = loops c.
Proof. unfold loadname. pose proof (loops_value r c) as E. destruct (put_value r c). exact E. Qed.
Lemma lok_loadname v r c : lok c -> lok (loadname v r c). Proof. intros K. eapply lok_keep; [exact K|apply ext_loadname|apply loops_loadname]. Qed.
Lemma loops_decl x c : loops (decl x c) = loops c.
Proof. unfold decl, put_local. destruct (vput _ _); reflexivity. Qed.
Lemma lok_decl x c : lok c -> lok (decl x c). Proof. intros K. eapply lok_keep; [exact K|apply ext_decl|apply loops_decl]. Qed.
Lemma loops_useup x c : loops (useup x c) = loops c.
Proof. unfold useup, PN_UPVAL. destruct (vfind _ _); [reflexivity|]. destruct (vfind _ _); [reflexivity|]. destruct (find_owner _ _); reflexivity. Qed.
Lemma lok_useup x c : lok c -> lok (useup x c). Proof. intros K. eapply lok_keep; [exact K|apply ext_useup|apply loops_useup]. Qed.
Lemma loops_captures us r c : loops (captures us r c) = loops c.
Proof. revert c. induction us; intros; cbn; [reflexivity|]. rewrite IHus. destruct (vfind _ _); reflexivity. Qed.
Lemma loops_endfun r c c1 : loops (endfun r c c1) = loops c.
Proof. unfold endfun. destruct (c_up c1); [reflexivity|]. rewrite loops_captures. reflexivity. Qed.
Lemma loops_endloop j2 j1 o r c : loops (endloop j2 j1 o r c) = match o with Some p => p | None => ([], []) end.
Proof. unfold endloop. cbv zeta. reflexivity. Qed.

Ltac lt := lazymatch goal with
  | |- lok (PN_REG _ _) => apply lok_reg; lt
  | |- lok (asm2 _ _ _ _) => apply lok_asm2; lt
  | |- lok (asm1 _ _ _) => apply lok_asm1; lt
  | |- lok (put_path _ _) => apply lok_path; lt
  | |- lok (load_value _ _ _) => apply lok_load; lt
  | |- lok (loadname _ _ _) => apply lok_loadname; lt
  | |- lok (decl _ _) => apply lok_decl; lt
  | |- lok (useup _ _) => apply lok_useup; lt
  | |- lok (cexp ?e _ _) => match goal with IH : context [cexp e] |- _ => apply IH; lt end
  | |- lok (cexps ?e _ _) => match goal with IH : context [cexps e] |- _ => apply IH; lt end
  | |- lok (citems ?e _ _) => match goal with IH : context [citems e] |- _ => apply IH; lt end
  | |- lok (cargs ?e _ _) => match goal with IH : context [cargs e] |- _ => apply IH; lt end
  | |- lok (cclauses ?e _ _) => match goal with IH : context [cclauses e] |- _ => apply IH; lt end
  | |- lok (patch_b _ _ _) => apply lok_pb; [lt|first [eapply fr_asm; [|xtl]; lt | idtac]]
  | |- lok ?c => first [assumption | match goal with K : loops c = loops ?b, X : ext ?b c |- _ => eapply lok_keep; [|exact X|exact K]; lt end]
  end
with xtl := lazymatch goal with
  | |- ext ?c ?c => apply ext_start
  | |- ext _ (cexp ?e _ _) => eapply ext_t; [|apply cexp_ext]; xtl
  | |- ext _ (cexps ?e _ _) => eapply ext_t; [|apply cexp_ext]; xtl
  | |- ext _ (citems ?e _ _) => eapply ext_t; [|apply cexp_ext]; xtl
  | |- ext _ (cargs ?e _ _) => eapply ext_t; [|apply cexp_ext]; xtl
  | |- ext _ (cclauses ?e _ _) => eapply ext_t; [|apply cexp_ext]; xtl
  | |- ext _ (PN_REG _ _) => eapply ext_t; [|apply ext_reg]; xtl
  | |- ext _ (asm2 _ _ _ _) => first [apply ext_start | eapply ext_t; [|apply ext_asm2]; xtl]
  | |- ext _ (asm1 _ _ _) => first [apply ext_start | eapply ext_t; [|apply ext_asm1]; xtl]
  | |- ext _ (put_path _ _) => eapply ext_t; [|apply ext_path]; xtl
  | |- ext _ (load_value _ _ _) => eapply ext_t; [|apply ext_load]; xtl
  | |- ext _ (loadname _ _ _) => eapply ext_t; [|apply ext_loadname]; xtl
  | |- ext _ (decl _ _) => eapply ext_t; [|apply ext_decl]; xtl
  | |- ext _ (useup _ _) => eapply ext_t; [|apply ext_useup]; xtl
  | |- ext _ (patch_b _ _ _) => first [apply ext_start | apply ext_pb; [xtl|apply ext_le; xtl]]
  | |- ext _ ?c1 => match goal with K : ext ?b c1 |- _ => eapply ext_t; [|exact K]; xtl end
  end.
Ltac pvl := repeat match goal with |- context [put_value ?n ?c] =>
  let H := fresh "PV" in let H2 := fresh "PL" in pose proof (ext_value n c) as H; pose proof (loops_value n c) as H2;
  destruct (put_value n c) as [? ?]; cbn [fst] in H, H2 end.

Lemma lok_break c : lok c -> lok (asm1 O_JMP 0 (set_loop (Some (fst (loops c) ++ [oplen c], snd (loops c))) c)).
Proof.
  intros K i. cbn [loops c_loop asm1 asm2 onf set_loop fst snd]. rewrite memb_app.
  assert (Q : oplen (asm1 O_JMP 0 (set_loop (Some (fst (loops c) ++ [oplen c], snd (loops c))) c)) = oplen c + 1) by (unfold asm1; rewrite oplen_asm2; reflexivity).
  rewrite Q. unfold code. cbn. intros D.
  assert (E : (memb i (fst (loops c)) = true \/ memb i (snd (loops c)) = true) \/ i = oplen c).
  { unfold memb in *. destruct D as [D|D]; auto. apply orb_prop in D. destruct D as [D|D]; auto. right. lia. }
  destruct E as [E|E].
  - destruct (K i E). split; [lia|]. rewrite gnth_app1 by (unfold oplen in *; lia). assumption.
  - subst i. split; [lia|]. rewrite gnth_app2 by (unfold oplen; lia). unfold oplen. rewrite Z.sub_diag. reflexivity.
Qed.
Lemma lok_cont c : lok c -> lok (asm1 O_JMP 0 (set_loop (Some (fst (loops c), snd (loops c) ++ [oplen c])) c)).
Proof.
  intros K i. cbn [loops c_loop asm1 asm2 onf set_loop fst snd]. rewrite memb_app.
  assert (Q : oplen (asm1 O_JMP 0 (set_loop (Some (fst (loops c), snd (loops c) ++ [oplen c])) c)) = oplen c + 1) by (unfold asm1; rewrite oplen_asm2; reflexivity).
  rewrite Q. unfold code. cbn. intros D.
  assert (E : (memb i (fst (loops c)) = true \/ memb i (snd (loops c)) = true) \/ i = oplen c).
  { unfold memb in *. destruct D as [D|D]; auto. apply orb_prop in D. destruct D as [D|D]; auto. right. lia. }
  destruct E as [E|E].
  - destruct (K i E). split; [lia|]. rewrite gnth_app1 by (unfold oplen in *; lia). assumption.
  - subst i. split; [lia|]. rewrite gnth_app2 by (unfold oplen; lia). unfold oplen. rewrite Z.sub_diag. reflexivity.
Qed.

Lemma patch_a_at j v c i : gnth (code (patch_a j v c)) i =
  if i =? j then option_map (fun x => mkI (ic x) (sx12 v) (ib x)) (gnth (code c) i) else gnth (code c) i.
Proof.
  unfold code, patch_a, onf. cbn. destruct (i =? j) eqn:E.
  - apply Z.eqb_eq in E. subst i. destruct (gnth (b_code (c_f c)) j) eqn:G.
    + erewrite seti_same by exact G. reflexivity.
    + unfold seti. rewrite G. exact G.
  - rewrite seti_other by lia. reflexivity.
Qed.
Lemma patch_b_at j v c i : gnth (code (patch_b j v c)) i =
  if i =? j then option_map (fun x => mkI (ic x) (ia x) (sx12 v)) (gnth (code c) i) else gnth (code c) i.
Proof.
  unfold code, patch_b, onf. cbn. destruct (i =? j) eqn:E.
  - apply Z.eqb_eq in E. subst i. destruct (gnth (b_code (c_f c)) j) eqn:G.
    + erewrite seti_same by exact G. reflexivity.
    + unfold seti. rewrite G. exact G.
  - rewrite seti_other by lia. reflexivity.
Qed.
Lemma patch_all_at l t c i : gnth (code (patch_all l t c)) i =
  if memb i l then option_map (fun x => mkI (ic x) (sx12 (t - i - 1)) (ib x)) (gnth (code c) i) else gnth (code c) i.
Proof.
  unfold patch_all. revert c. induction l as [|j l IH]; intros c; [reflexivity|]. cbn [fold_left]. rewrite IH.
  change (memb i (j :: l)) with ((i =? j) || memb i l). rewrite patch_a_at.
  destruct (i =? j) eqn:E; [|reflexivity]. apply Z.eqb_eq in E. subst j. cbn [orb].
  destruct (memb i l); [|reflexivity]. destruct (gnth (code c) i); reflexivity.
Qed.
(* the code after a loop has been closed *)
Lemma endloop_code j2 j1 o r c i : i < oplen c -> (forall j, j1 = Some j -> j < oplen c) ->
  gnth (code (endloop j2 j1 o r c)) i =
  let p := match j1 with
           | Some j => if i =? j then option_map (fun x => mkI (ic x) (ia x) (sx12 (oplen c + 1 - j - 1))) (gnth (code c) i)
                       else gnth (code c) i
           | None => gnth (code c) i end in
  let p := if memb i (fst (loops c)) then option_map (fun x => mkI (ic x) (sx12 (oplen c + 1 - i - 1)) (ib x)) p else p in
  if memb i (snd (loops c)) then option_map (fun x => mkI (ic x) (sx12 (j2 - i - 1)) (ib x)) p else p.
Proof.
  intros L J. unfold endloop. cbv zeta.
  match goal with |- gnth (code (PN_REG ?r (set_loop ?o ?d))) i = _ => change (gnth (code (PN_REG r (set_loop o d))) i) with (gnth (code (PN_REG r d)) i) end.
  assert (R : forall d, gnth (code (PN_REG (r + 1) d)) i = gnth (code d) i).
  { intros d. unfold code, PN_REG, onf. cbn. destruct (_ <=? _); reflexivity. }
  rewrite R, patch_all_at, patch_all_at.
  assert (A : gnth (code (asm1 O_JMP (j2 - oplen c - 1) c)) i = gnth (code c) i).
  { unfold code. cbn. rewrite gnth_app1 by exact L. reflexivity. }
  assert (B : oplen (asm1 O_JMP (j2 - oplen c - 1) c) = oplen c + 1) by apply oplen_asm2.
  destruct j1 as [j|]; rewrite ?oplen_patch_b, B, ?patch_b_at, A; reflexivity.
Qed.
Lemma oplen_endloop j2 j1 o r c : oplen (endloop j2 j1 o r c) = oplen c + 1.
Proof.
  unfold endloop. cbv zeta. rewrite oplen_reg, oplen_loop, oplen_patch_all, oplen_patch_all.
  destruct j1; rewrite ?oplen_patch_b; apply oplen_asm2.
Qed.
Lemma lok_endloop c1 j2 j1 r c : lok c1 -> ext (set_loop (Some ([], [])) c1) c -> (forall j, j1 = Some j -> j < oplen c1 /\ fr j c1) ->
  lok (endloop j2 j1 (c_loop c1) r c).
Proof.
  intros K X J i. rewrite loops_endloop. change (match c_loop c1 with Some p => p | None => ([], []) end) with (loops c1). intros D.
  destruct (K i D) as (A & B). pose proof (ext_le _ _ X) as Le. rewrite oplen_loop in Le. rewrite oplen_endloop. split; [lia|].
  rewrite endloop_code; [|lia|intros j E; destruct (J j E); lia]. cbv zeta.
  destruct (ext_memb _ _ i X) as (M1 & M2); [rewrite oplen_loop; exact A|]. cbn [loops c_loop set_loop fst snd] in M1, M2.
  rewrite M1, M2. cbn.
  assert (C : gnth (code c) i = Some (mkI O_JMP 0 0)).
  { destruct X. rewrite x_code by (rewrite oplen_loop; exact A). exact B. }
  destruct j1 as [j|]; [|exact C]. destruct (i =? j) eqn:E; [|exact C]. apply Z.eqb_eq in E. subst j.
  destruct (J i eq_refl) as (_ & F1 & F2). destruct D; congruence.
Qed.
Lemma cexp_lok :
  (forall e r c, lok c -> lok (cexp e r c))
  /\ (forall es, (forall r c, lok c -> lok (cexps es r c)) /\ (forall r c, lok c -> lok (citems es r c)) /\ (forall r c, lok c -> lok (cargs es r c)))
  /\ (forall k r c, lok c -> lok (cclauses k r c)).
Proof.
  apply exp_ind3; intros; repeat match goal with IH : _ /\ _ |- _ => destruct IH end;
   try (match goal with |- _ /\ _ => repeat apply conj end; intros); cbn [cexp cexps citems cargs cclauses]; cbv zeta; pvl; try lt.
  - destruct post; lt.
  - apply lok_endloop; [lt|eapply ext_t; [apply ext_reg|apply cexp_ext]|].
    intros j [= <-]. split; [rewrite oplen_asm2; lia|]. eapply fr_asm; [|apply ext_start]. lt.
  - apply (lok_endloop (PN_REG r c)); [lt|eapply ext_t; [apply ext_reg|apply cexp_ext]|]. intros j [=].
  - apply lok_reg, lok_break. lt.
  - apply lok_reg, lok_cont. lt.
  - destruct up, k; cbv zeta; pvl; lt.
  - eapply (lok_keep c); [assumption| |rewrite loops_endfun; reflexivity].
    apply ext_endfun; [xt|]. right. exists ps. eapply ext_t; [apply ext_reg|apply cexp_ext].
  - apply fr_pb. eapply fr_asm; [|xtl]. lt.
Qed.

Ltac wfinv := repeat match goal with
  | H : guard _ _ = Some _ |- _ => apply guard_Some in H; destruct H as [? H]
  | H : obind _ _ = Some _ |- _ => apply obind_Some in H; destruct H as (? & ? & H)
  | H : Some _ = Some _ |- _ => injection H as H
  | H : _ && _ = true |- _ => apply andb_prop in H; destruct H
  | H : negb _ = true |- _ => apply negb_true_iff in H
  end.
Ltac wfe := repeat match goal with
  | H : wf _ _ _ _ ?e = Some _ |- _ => is_var e; fail 1
  | H : wf _ _ _ _ _ = Some _ |- _ => rewrite wf_eq in H; cbv beta iota in H
  | H : wf_all _ _ _ _ Nil = Some _ |- _ => rewrite wf_all_eq in H; cbv beta iota in H
  | H : wf_all _ _ _ _ (Cons _ _) = Some _ |- _ => rewrite wf_all_eq in H; cbv beta iota in H
  | H : wf_items _ _ _ _ Nil = Some _ |- _ => rewrite wf_items_eq in H; cbv beta iota in H
  | H : wf_items _ _ _ _ (Cons _ _) = Some _ |- _ => rewrite wf_items_eq in H; cbv beta iota in H
  | H : wf_clauses _ _ _ _ (_ _) = Some _ |- _ => rewrite wf_clauses_eq in H; cbv beta iota in H
  | H : wf_clauses _ _ _ _ (_ _ _ _) = Some _ |- _ => rewrite wf_clauses_eq in H; cbv beta iota in H
  | H : wf_clauses _ _ _ _ KEnd = Some _ |- _ => rewrite wf_clauses_eq in H; cbv beta iota in H
  end; wfinv.

(** outside a loop nothing is left pending *)
Section Upper.
Context (upper : Z -> bool).
Ltac ll := cbn [loops c_loop]; rewrite ?loops_load, ?loops_loadname, ?loops_decl, ?loops_useup, ?loops_endfun;
  repeat (match goal with
  | |- loops (PN_REG ?r ?c) = _ => change (loops (PN_REG r c)) with (loops c)
  | |- loops (asm2 ?o ?a ?b ?c) = _ => change (loops (asm2 o a b c)) with (loops c)
  | |- loops (asm1 ?o ?a ?c) = _ => change (loops (asm1 o a c)) with (loops c)
  | |- loops (put_path ?o ?c) = _ => change (loops (put_path o c)) with (loops c)
  | |- loops (patch_b ?o ?v ?c) = _ => change (loops (patch_b o v c)) with (loops c)
  | |- loops (load_value _ _ _) = _ => rewrite loops_load
  | |- loops (loadname _ _ _) = _ => rewrite loops_loadname
  | |- loops (decl _ _) = _ => rewrite loops_decl
  | |- loops (useup _ _) = _ => rewrite loops_useup
  | |- loops (endfun _ _ _) = _ => rewrite loops_endfun
  | IH : context [cexp ?e] |- loops (cexp ?e _ _) = _ => erewrite IH by eassumption
  | IH : context [cexps ?e] |- loops (cexps ?e _ _) = _ => erewrite IH by eassumption
  | IH : context [citems ?e] |- loops (citems ?e _ _) = _ => erewrite IH by eassumption
  | IH : context [cargs ?e] |- loops (cargs ?e _ _) = _ => erewrite IH by eassumption
  | IH : context [cclauses ?e] |- loops (cclauses ?e _ _) = _ => erewrite IH by eassumption
  | PL : loops ?c = loops _ |- loops ?c = _ => rewrite PL
  end); try reflexivity.
Lemma cexp_loops :
  (forall e enc L L' r c, wf upper enc false L e = Some L' -> loops (cexp e r c) = loops c)
  /\ (forall es, (forall enc L L' r c, wf_all upper enc false L es = Some L' -> loops (cexps es r c) = loops c)
       /\ (forall enc L L' r c, wf_items upper enc false L es = Some L' -> loops (citems es r c) = loops c)
       /\ (forall enc L L' r c, wf_items upper enc false L es = Some L' -> loops (cargs es r c) = loops c))
  /\ (forall k enc L L' r c, wf_clauses upper enc false L k = Some L' -> loops (cclauses k r c) = loops c).
Proof.
  apply exp_ind3; intros; repeat match goal with IH : _ /\ _ |- _ => destruct IH end;
   try (match goal with |- _ /\ _ => repeat apply conj end; intros); wfe; cbn [cexp cexps citems cargs cclauses]; cbv zeta; pvl; ll.
  - destruct post; ll.
  - rewrite loops_endloop. change (match c_loop ?c with Some p => p | None => ([], []) end) with (loops c). ll.
  - discriminate.
  - discriminate.
  - destruct up, k; cbv zeta; pvl; ll.
Qed.

(** ** lengths *)
Lemma oplen_value v c : oplen (fst (put_value v c)) = oplen c.
Proof. unfold put_value. destruct (vput _ _); reflexivity. Qed.
Lemma tbl_value v c : c_tbl (fst (put_value v c)) = c_tbl c.
Proof. unfold put_value. destruct (vput _ _); reflexivity. Qed.
Lemma oplen_path v c : oplen (put_path v c) = oplen c. Proof. reflexivity. Qed.
Lemma oplen_load v r c : oplen (load_value v r c) = oplen c + 1.
Proof. unfold load_value. destruct (_ && _); [apply oplen_asm2|]. pose proof (oplen_value v c) as E. destruct (put_value v c). cbn [fst] in E. rewrite oplen_asm2. lia. Qed.
Lemma tbl_load v r c : c_tbl (load_value v r c) = c_tbl c.
Proof. unfold load_value. destruct (_ && _); [reflexivity|]. pose proof (tbl_value v c) as E. destruct (put_value v c). exact E. Qed.
Lemma oplen_loadname v r c : oplen (loadname r v c) = oplen c + 1.
Proof. unfold loadname. pose proof (oplen_value v c) as E. destruct (put_value v c). cbn [fst] in E. rewrite oplen_asm2. lia. Qed.
Lemma tbl_loadname v r c : c_tbl (loadname r v c) = c_tbl c.
Proof. unfold loadname. pose proof (tbl_value v c) as E. destruct (put_value v c). exact E. Qed.
Lemma oplen_decl x c : oplen (decl x c) = oplen c.
Proof. unfold decl, put_local. destruct (vput _ _); reflexivity. Qed.
Lemma tbl_decl x c : c_tbl (decl x c) = c_tbl c.
Proof. unfold decl, put_local. destruct (vput _ _); reflexivity. Qed.
Lemma oplen_useup x c : oplen (useup x c) = oplen c.
Proof. unfold useup, PN_UPVAL. destruct (vfind _ _); [reflexivity|]. destruct (vfind _ _); [reflexivity|]. destruct (find_owner _ _); reflexivity. Qed.
Lemma tbl_useup x c : c_tbl (useup x c) = c_tbl c.
Proof. unfold useup, PN_UPVAL. destruct (vfind _ _); [reflexivity|]. destruct (vfind _ _); [reflexivity|]. destruct (find_owner _ _); reflexivity. Qed.
Lemma oplen_captures us r c : oplen (captures us r c) = oplen c + zlen us.
Proof.
  revert c. induction us; intros; cbn; [rewrite zlen_nil; lia|]. rewrite IHus, zlen_cons.
  destruct (vfind _ _); rewrite oplen_asm2; lia.
Qed.
Lemma tbl_captures us r c : c_tbl (captures us r c) = c_tbl c.
Proof. revert c. induction us; intros; cbn; [reflexivity|]. rewrite IHus. destruct (vfind _ _); reflexivity. Qed.
Lemma tbl_endloop j2 j1 o r c : c_tbl (endloop j2 j1 o r c) = c_tbl c.
Proof.
  unfold endloop. cbv zeta. assert (P : forall l t d, c_tbl (patch_all l t d) = c_tbl d).
  { unfold patch_all. induction l; intros; cbn; [reflexivity|]. rewrite IHl. reflexivity. }
  unfold PN_REG, onf, set_loop. cbn. rewrite P, P. destruct j1; reflexivity.
Qed.
(* what a function under construction leaves in its enclosing one *)
Lemma fun_up ps r c b : exists t up,
  c_up (cexps b r (PN_REG 0 (mkC (pb0 ps ps) (c_f c :: c_up c) (c_tbl c) None))) = set_upvals (c_f c) (b_upvals (c_f c) ++ t) :: up
  /\ Forall2 upx (c_up c) up.
Proof.
  assert (X : ext (mkC (pb0 ps ps) (c_f c :: c_up c) (c_tbl c) None) (cexps b r (PN_REG 0 (mkC (pb0 ps ps) (c_f c :: c_up c) (c_tbl c) None)))).
  { eapply ext_t; [apply ext_reg|apply cexp_ext]. }
  destruct X. cbn in x_chain. inversion x_chain as [|u1 u2 u3 u4 U1 U2 U3 U4]; subst. destruct U1 as (t & ->). exists t, u4. auto.
Qed.

Ltac olr := repeat (rewrite oplen_reg || rewrite oplen_patch_b || rewrite oplen_asm2 || rewrite oplen_load || rewrite oplen_loadname || rewrite oplen_decl || rewrite oplen_useup || rewrite oplen_endloop || rewrite oplen_loop || rewrite oplen_path || match goal with PV : oplen ?c = oplen _ |- context [oplen ?c] => rewrite PV end).
Ltac tbr := repeat match goal with
  | |- context [c_tbl (PN_REG ?r ?c)] => change (c_tbl (PN_REG r c)) with (c_tbl c)
  | |- context [c_tbl (asm2 ?o ?a ?b ?c)] => change (c_tbl (asm2 o a b c)) with (c_tbl c)
  | |- context [c_tbl (asm1 ?o ?a ?c)] => change (c_tbl (asm1 o a c)) with (c_tbl c)
  | |- context [c_tbl (put_path ?o ?c)] => change (c_tbl (put_path o c)) with (c_tbl c)
  | |- context [c_tbl (patch_b ?o ?v ?c)] => change (c_tbl (patch_b o v c)) with (c_tbl c)
  | |- context [c_tbl (set_loop ?o ?c)] => change (c_tbl (set_loop o c)) with (c_tbl c)
  | |- context [c_tbl (load_value _ _ _)] => rewrite tbl_load
  | |- context [c_tbl (loadname _ _ _)] => rewrite tbl_loadname
  | |- context [c_tbl (decl _ _)] => rewrite tbl_decl
  | |- context [c_tbl (useup _ _)] => rewrite tbl_useup
  | |- context [c_tbl (captures _ _ _)] => rewrite tbl_captures
  | |- context [c_tbl (endloop _ _ _ _ _)] => rewrite tbl_endloop
  | PL : c_tbl ?c = _ |- context [c_tbl ?c] => rewrite PL
  end.
Ltac pvt := repeat match goal with |- context [put_value ?n ?c] =>
  let H := fresh "PV" in let H2 := fresh "PL" in let H3 := fresh "PX" in
  pose proof (oplen_value n c) as H; pose proof (tbl_value n c) as H2; pose proof (ext_value n c) as H3;
  destruct (put_value n c) as [? ?]; cbn [fst] in H, H2, H3 end.

(** the number of functions finished *)
Lemma cexp_tbl :
  (forall e n n' r c, lab n e = Some n' -> zlen (c_tbl c) = n -> zlen (c_tbl (cexp e r c)) = n')
  /\ (forall es, (forall n n' r c, lab_all n es = Some n' -> zlen (c_tbl c) = n -> zlen (c_tbl (cexps es r c)) = n')
     /\ (forall n n' r c, lab_all n es = Some n' -> zlen (c_tbl c) = n -> zlen (c_tbl (citems es r c)) = n')
     /\ (forall n n' r c, lab_all n es = Some n' -> zlen (c_tbl c) = n -> zlen (c_tbl (cargs es r c)) = n'))
  /\ (forall k n n' r c, lab_clauses n k = Some n' -> zlen (c_tbl c) = n -> zlen (c_tbl (cclauses k r c)) = n').
Proof.
  apply exp_ind3; intros; repeat match goal with IH : _ /\ _ |- _ => destruct IH end;
   try (match goal with |- _ /\ _ => repeat apply conj end; intros);
   cbn [lab lab_all lab_clauses] in *; wfinv; cbn [cexp cexps citems cargs cclauses]; cbv zeta; pvt; tbr; try congruence.
  all: repeat (match goal with
   | IH : context [cexp ?e] |- zlen (c_tbl (cexp ?e _ _)) = _ => eapply IH; [eassumption|]
   | IH : context [cexps ?e] |- zlen (c_tbl (cexps ?e _ _)) = _ => eapply IH; [eassumption|]
   | IH : context [citems ?e] |- zlen (c_tbl (citems ?e _ _)) = _ => eapply IH; [eassumption|]
   | IH : context [cargs ?e] |- zlen (c_tbl (cargs ?e _ _)) = _ => eapply IH; [eassumption|]
   | IH : context [cclauses ?e] |- zlen (c_tbl (cclauses ?e _ _)) = _ => eapply IH; [eassumption|]
   end; tbr).
  all: try congruence; try (destruct post; tbr; congruence).
  { destruct up, k; cbv zeta; pvt; tbr; congruence. }
  match goal with K : (if _ =? l then _ else _) = Some _ |- _ => destruct (_ =? l) eqn:El in K; [|discriminate]; injection K as <- end.
  destruct (fun_up ps 0 (PN_REG r c) b) as (t & up & U & _). change (c_tbl (PN_REG r c)) with (c_tbl c) in U. unfold endfun. rewrite U. tbr.
  cbn [c_tbl]. rewrite zlen_snoc.
  match goal with IH : context [cexps b] |- _ => erewrite IH; [|eassumption|tbr; cbn [c_tbl]; tbr; congruence] end. lia.
Qed.

Section Tbl.
Context (tbl : list pb).
Lemma pre_tbl c c' : pre (c_tbl c') tbl -> ext c c' -> pre (c_tbl c) tbl.
Proof. intros H []. eapply pre_trans; eassumption. Qed.
Lemma pre_ext l c c' : pre l (c_tbl c) -> ext c c' -> pre l (c_tbl c').
Proof. intros H []. eapply pre_trans; eassumption. Qed.
Ltac ptx := lazymatch goal with
  | |- pre (c_tbl ?X) (c_tbl ?X) => apply pre_refl
  | |- pre _ (c_tbl (PN_REG ?r ?c)) => change (c_tbl (PN_REG r c)) with (c_tbl c); ptx
  | |- pre _ (c_tbl (asm2 ?o ?a ?b ?c)) => change (c_tbl (asm2 o a b c)) with (c_tbl c); ptx
  | |- pre _ (c_tbl (asm1 ?o ?a ?c)) => change (c_tbl (asm1 o a c)) with (c_tbl c); ptx
  | |- pre _ (c_tbl (put_path ?o ?c)) => change (c_tbl (put_path o c)) with (c_tbl c); ptx
  | |- pre _ (c_tbl (patch_b ?o ?v ?c)) => change (c_tbl (patch_b o v c)) with (c_tbl c); ptx
  | |- pre _ (c_tbl (set_loop ?o ?c)) => change (c_tbl (set_loop o c)) with (c_tbl c); ptx
  | |- pre _ (c_tbl (endloop _ _ _ _ _)) => rewrite tbl_endloop; ptx
  | |- pre _ (c_tbl (cexp _ _ _)) => eapply pre_ext; [|apply cexp_ext]; ptx
  | |- pre _ (c_tbl (cexps _ _ _)) => eapply pre_ext; [|apply cexp_ext]; ptx
  | |- pre _ (c_tbl (citems _ _ _)) => eapply pre_ext; [|apply cexp_ext]; ptx
  | |- pre _ (c_tbl (cargs _ _ _)) => eapply pre_ext; [|apply cexp_ext]; ptx
  | |- pre _ (c_tbl (cclauses _ _ _)) => eapply pre_ext; [|apply cexp_ext]; ptx
  | |- pre _ (c_tbl (load_value _ _ _)) => rewrite tbl_load; ptx
  | |- pre _ (c_tbl (loadname _ _ _)) => rewrite tbl_loadname; ptx
  | |- pre _ (c_tbl (decl _ _)) => rewrite tbl_decl; ptx
  | |- pre _ (c_tbl (useup _ _)) => rewrite tbl_useup; ptx
  | |- pre _ (c_tbl ?c) => match goal with PL : c_tbl c = _ |- _ => rewrite PL; ptx end
  end.
Ltac ptb := first [eassumption | eapply pre_trans; [|eassumption]; ptx].
Lemma gnth_last {A} (l : list A) x : gnth (l ++ [x]) (zlen l) = Some x.
Proof. rewrite gnth_app2 by lia. rewrite Z.sub_diag. reflexivity. Qed.
Lemma fun_ups g l c1 : zlen (c_tbl c1) = l -> pre (c_tbl c1 ++ [g]) tbl -> gnth tbl l = Some g.
Proof. intros <- P. eapply pre_gnth; [exact P|]. apply gnth_last. Qed.
Lemma ups_eq g l : gnth tbl l = Some g -> ups tbl l = b_upvals g.
Proof. unfold ups. intros ->. reflexivity. Qed.
Lemma cexp_len :
  (forall e n n' r c, lab n e = Some n' -> zlen (c_tbl c) = n -> pre (c_tbl (cexp e r c)) tbl -> oplen (cexp e r c) = oplen c + size tbl e)
  /\ (forall es, (forall n n' r c, lab_all n es = Some n' -> zlen (c_tbl c) = n -> pre (c_tbl (cexps es r c)) tbl -> oplen (cexps es r c) = oplen c + size_all tbl es)
     /\ (forall n n' r c, lab_all n es = Some n' -> zlen (c_tbl c) = n -> pre (c_tbl (citems es r c)) tbl -> oplen (citems es r c) = oplen c + size_items tbl es)
     /\ (forall n n' r c, lab_all n es = Some n' -> zlen (c_tbl c) = n -> pre (c_tbl (cargs es r c)) tbl -> oplen (cargs es r c) = oplen c + size_all tbl es))
  /\ (forall k n n' r c, lab_clauses n k = Some n' -> zlen (c_tbl c) = n -> pre (c_tbl (cclauses k r c)) tbl -> oplen (cclauses k r c) = oplen c + size_clauses tbl k).
Proof.
  pose proof cexp_tbl as (T1 & T2 & T3).
  apply exp_ind3; intros; repeat match goal with IH : (forall r c, _) /\ _ |- _ => destruct IH | IH : (forall n n' r c, _) /\ _ |- _ => destruct IH end;
   try (match goal with |- _ /\ _ => repeat apply conj end; intros);
   cbn [lab lab_all lab_clauses] in *; wfinv; cbn [cexp cexps citems cargs cclauses] in *; cbv zeta in *;
   autorewrite with csize.
  all: try match goal with H : pre (c_tbl (let (_, _) := put_value ?n ?c in _)) _ |- _ => revert H end; pvt; intros; unfold asm1 in *.
  all: try match goal with IH : context [cclauses ?k] |- oplen (cclauses ?k _ _) = _ => erewrite IH; [|eassumption| |ptb] end.
  all: olr; try lia.
  all: try (destruct post; olr; lia).
  all: try match goal with k : akey |- _ => destruct up, k; cbv zeta; pvt; olr; lia end.
  all: repeat (match goal with
   | IH : context [cclauses ?e] |- context [oplen (cclauses ?e _ _)] => erewrite IH; [olr|eassumption| |ptb]
   | IH : context [cargs ?e] |- context [oplen (cargs ?e _ _)] => erewrite IH; [olr|eassumption| |ptb]
   | IH : context [citems ?e] |- context [oplen (citems ?e _ _)] => erewrite IH; [olr|eassumption| |ptb]
   | IH : context [cexps ?e] |- context [oplen (cexps ?e _ _)] => erewrite IH; [olr|eassumption| |ptb]
   | IH : context [cexp ?e] |- context [oplen (cexp ?e _ _)] => erewrite IH; [olr|eassumption| |ptb]
   | |- zlen _ = _ => tbr; first [assumption | eapply T1; [eassumption|] | eapply T2; [eassumption|] | eapply T3; [eassumption|]]
   end).
  all: try lia.
  match goal with K : (if _ =? l then _ else _) = Some _ |- _ => destruct (_ =? l) eqn:El in K; [|discriminate]; injection K as <- end.
  apply Z.eqb_eq in El. subst x.
  destruct (fun_up ps 0 (PN_REG r c) b) as (t & up & U & _). set (c1 := cexps b 0 _) in *. unfold endfun in *. rewrite U in *.
  rewrite oplen_captures, oplen_asm2, tbl_captures in *. cbn [c_tbl asm2 onf] in *.
  erewrite ups_eq by (eapply fun_ups; [|eassumption]; eapply T2; [eassumption|]; tbr; cbn [c_tbl]; assumption).
  change (oplen _) with (oplen (PN_REG r c)) at 1. rewrite oplen_reg. lia.
Qed.
End Tbl.
End Upper.

(** ** registers: everything an expression uses lies below f->stack *)
Lemma stk_reg r c : r + 1 <= b_stack (c_f (PN_REG r c)).
Proof. unfold PN_REG, onf. cbn. destruct (_ <=? _) eqn:E; cbn; lia. Qed.
Lemma stk_ext z c c' : z <= b_stack (c_f c) -> ext c c' -> z <= b_stack (c_f c').
Proof. intros H []. lia. Qed.
Ltac stx := lazymatch goal with
  | |- b_stack (c_f ?X) <= b_stack (c_f ?X) => apply Z.le_refl
  | |- ?z <= b_stack (c_f (PN_REG ?r ?c)) => first [apply stk_reg | match goal with |- _ <= ?W => pose proof (stk_reg r c); lia end | eapply stk_ext; [|apply ext_reg]; stx]
  | |- _ <= b_stack (c_f (asm2 ?o ?a ?b ?c)) => change (b_stack (c_f (asm2 o a b c))) with (b_stack (c_f c)); stx
  | |- _ <= b_stack (c_f (asm1 ?o ?a ?c)) => change (b_stack (c_f (asm1 o a c))) with (b_stack (c_f c)); stx
  | |- _ <= b_stack (c_f (put_path ?o ?c)) => change (b_stack (c_f (put_path o c))) with (b_stack (c_f c)); stx
  | |- _ <= b_stack (c_f (patch_b ?o ?v ?c)) => change (b_stack (c_f (patch_b o v c))) with (b_stack (c_f c)); stx
  | |- _ <= b_stack (c_f (set_loop ?o ?c)) => change (b_stack (c_f (set_loop o c))) with (b_stack (c_f c)); stx
  | |- _ <= b_stack (c_f (cexp _ _ _)) => first [eassumption | eapply stk_ext; [|apply cexp_ext]; stx]
  | |- _ <= b_stack (c_f (cexps _ _ _)) => first [eassumption | eapply stk_ext; [|apply cexp_ext]; stx]
  | |- _ <= b_stack (c_f (citems _ _ _)) => first [eassumption | eapply stk_ext; [|apply cexp_ext]; stx]
  | |- _ <= b_stack (c_f (cargs _ _ _)) => first [eassumption | eapply stk_ext; [|apply cexp_ext]; stx]
  | |- _ <= b_stack (c_f (cclauses _ _ _)) => first [eassumption | eapply stk_ext; [|apply cexp_ext]; stx]
  | |- _ <= b_stack (c_f (load_value _ _ _)) => eapply stk_ext; [|apply ext_load]; stx
  | |- _ <= b_stack (c_f (loadname _ _ _)) => eapply stk_ext; [|apply ext_loadname]; stx
  | |- _ <= b_stack (c_f (decl _ _)) => eapply stk_ext; [|apply ext_decl]; stx
  | |- _ <= b_stack (c_f (useup _ _)) => eapply stk_ext; [|apply ext_useup]; stx
  | |- _ <= b_stack (c_f ?c1) => match goal with K : ext ?b c1 |- _ => eapply stk_ext; [|exact K]; stx end
  end.
Lemma stk_endloop j2 j1 o r c z : z <= b_stack (c_f c) \/ z <= r + 2 -> z <= b_stack (c_f (endloop j2 j1 o r c)).
Proof.
  unfold endloop. cbv zeta. intros [H|H].
  - eapply stk_ext; [|apply ext_reg]. assert (P : forall l t d, b_stack (c_f (patch_all l t d)) = b_stack (c_f d)).
    { unfold patch_all. induction l; intros; cbn; [reflexivity|]. rewrite IHl. reflexivity. }
    cbn. rewrite P, P. destruct j1; exact H.
  - match goal with |- z <= b_stack (c_f (PN_REG ?q ?c)) => pose proof (stk_reg q c) end. lia.
Qed.
Ltac Y_ k := match goal with |- _ <= b_stack (c_f ?Y) => k Y end.
Ltac sub_ X Y := assert (b_stack (c_f X) <= b_stack (c_f Y)) by (change (b_stack (c_f X) <= b_stack (c_f Y)); stx).
Ltac addone X fact := Y_ ltac:(fun Y => lazymatch goal with K : b_stack (c_f X) <= b_stack (c_f Y) |- _ => fail | _ => sub_ X Y; pose proof fact end).
Ltac addall := repeat match goal with
  | IH : context [cexp ?e], W : wf _ _ _ _ ?e = Some _ |- context [cexp ?e ?r ?c] => addone (cexp e r c) (IH _ _ _ _ r c W)
  | IH : context [cexps ?e], W : wf_all _ _ _ _ ?e = Some _ |- context [cexps ?e ?r ?c] => addone (cexps e r c) (IH _ _ _ _ r c W)
  | IH : context [citems ?e], W : wf_items _ _ _ _ ?e = Some _ |- context [citems ?e ?r ?c] => addone (citems e r c) (IH _ _ _ _ r c W)
  | IH : context [cargs ?e], W : wf_items _ _ _ _ ?e = Some _ |- context [cargs ?e ?r ?c] => addone (cargs e r c) (IH _ _ _ _ r c W)
  | IH : context [cclauses ?e], W : wf_clauses _ _ _ _ ?e = Some _ |- context [cclauses ?e ?r ?c] => addone (cclauses e r c) (IH _ _ _ _ r c W)
  | IH : context [cexp ?e], W : wf _ _ _ _ ?e = Some _, PV : ext (PN_REG _ (cexp ?e ?r ?c)) _ |- _ => addone (cexp e r c) (IH _ _ _ _ r c W)
  | |- context [PN_REG ?r ?c] => addone (PN_REG r c) (stk_reg r c)
  end.
Lemma cexp_stk upper :
  (forall e enc lp L L' r c, wf upper enc lp L e = Some L' -> r + need e + 1 <= b_stack (c_f (cexp e r c)))
  /\ (forall es, (forall enc lp L L' r c, wf_all upper enc lp L es = Some L' -> r + 1 <= b_stack (c_f c) \/ es <> Nil -> r + need_all es + 1 <= b_stack (c_f (cexps es r c)))
      /\ (forall enc lp L L' r c, wf_items upper enc lp L es = Some L' -> r + 1 <= b_stack (c_f c) -> r + need_items es + 1 <= b_stack (c_f (citems es r c)))
      /\ (forall enc lp L L' r c, wf_items upper enc lp L es = Some L' -> r + need_args es + 1 <= Z.max (r + 1) (b_stack (c_f (cargs es r c)))))
  /\ (forall k enc lp L L' r c, wf_clauses upper enc lp L k = Some L' -> r + 1 <= b_stack (c_f c) -> r + need_clauses k + 1 <= b_stack (c_f (cclauses k r c))).
Proof.
  apply exp_ind3; intros; repeat match goal with IH : (forall enc lp L L' r c, _) /\ _ |- _ => destruct IH end;
   try (match goal with |- _ /\ _ => repeat apply conj end; intros); wfe;
   cbn [cexp cexps citems cargs cclauses]; cbv zeta; pvl;
   cbn [need need_all need_items need_args need_clauses]; rewrite ?Z.add_0_r.
  all: try (stx; fail).
  all: try (destruct post; stx; fail).
  all: try match goal with k : akey |- _ => destruct up, k; cbv zeta; pvl; addall; stx; fail end.
  all: try (pose proof (elen_nonneg es)); try (addall; lia).
  - apply stk_endloop. left.
    match goal with IH : context [cexps b] |- _ => specialize (IH _ _ _ _ r (PN_REG r (set_loop (Some ([], [])) (asm2 O_NOTJMP (r + 1) 0 (cexp c (r + 1) (PN_REG r c0))))) H1 (or_introl (stk_reg _ _))) end.
    addall. lia.
  - apply Z.max_case_strong; intros _; (apply stk_endloop); [right; lia|left].
    match goal with IH : context [cexps b] |- _ => eapply IH; [eassumption|left; apply stk_reg] end.
  - match goal with IH : context [cexps es] |- _ => eapply IH; [eassumption|right; intros ->; discriminate] end.
  - eapply stk_ext; [apply (stk_reg r c)|]. apply ext_endfun; [xt|]. right. exists ps. eapply ext_t; [apply ext_reg|apply cexp_ext].
  - destruct H0; [assumption|congruence].
  - pose proof (proj1 need_nonneg e). addall. match goal with K : _ \/ es <> Nil -> _ |- _ => specialize (K ltac:(left; lia)) end. lia.
  - pose proof (H2 _ _ _ _ (r + 1) (cexp e (r + 1) c) H3). pose proof (H _ _ _ _ (r + 1) c H5). pose proof (proj1 need_nonneg e).
    assert (b_stack (c_f (cexp e (r + 1) c)) <= b_stack (c_f (cargs es (r + 1) (cexp e (r + 1) c)))) by stx. lia.
Qed.

(** ** captured variables: a function that uses a variable of an enclosing one
    has every function in between capture it too *)
Fixpoint lks (u : list Z) (ups : list pb) : Prop :=
  match ups with
  | [] => True
  | g :: t => (forall x, memb x u = true -> memb x (b_locals g) = true \/ memb x (b_upvals g) = true) /\ lks (b_upvals g) t
  end.
Definition lkk (k : list Z * list Z * list pb) : Prop := lks (snd (fst k)) (snd k).
Definition linked (c : cst) : Prop := lkk (skel c).
Lemma lks_push ups : forall u x k, find_owner ups x = Some k -> lks u ups -> lks (u ++ [x]) (push_first k x ups).
Proof.
  induction ups as [|f ups IH]; intros u x k; cbn [find_owner]; [discriminate|].
  destruct (vfind (b_locals f) x) eqn:E.
  - intros [= <-] (A & B). cbn. split; [|exact B]. intros y. rewrite memb_app. destruct (memb y u) eqn:G; [intros _; apply A; auto|].
    cbn. rewrite orb_false_r. intros K. apply Z.eqb_eq in K. subst y. left. rewrite vfind_memb, E. reflexivity.
  - destruct (find_owner ups x) as [j|] eqn:F; [|discriminate]. cbn. intros [= <-] (A & B). cbn [push_first lks push_upval b_locals b_upvals set_upvals].
    split; [|apply IH; auto]. intros y. rewrite memb_app. destruct (memb y u) eqn:G.
    + intros _. destruct (A y G) as [K|K]; [auto|]. right. rewrite memb_app, K. reflexivity.
    + cbn. rewrite orb_false_r. intros K. apply Z.eqb_eq in K. subst y. right. rewrite memb_app. cbn. rewrite Z.eqb_refl, orb_true_r. reflexivity.
Qed.
Lemma linked_eq c c' : skel c' = skel c -> linked c -> linked c'.
Proof. unfold linked. intros ->. auto. Qed.
Lemma linked_useup x c : linked c -> linked (useup x c).
Proof.
  unfold useup, PN_UPVAL. destruct (vfind _ _); [auto|]. destruct (vfind _ _); [auto|]. destruct (find_owner _ _) eqn:E; [|auto].
  intros K. apply lks_push; assumption.
Qed.
Lemma linked_decl x c : linked c -> linked (decl x c).
Proof. unfold linked. rewrite decl_skel. auto. Qed.
Ltac lkt := lazymatch goal with
  | |- linked (PN_REG _ _) => eapply linked_eq; [apply skel_reg|]; lkt
  | |- linked (asm2 _ _ _ _) => eapply linked_eq; [apply skel_asm2|]; lkt
  | |- linked (asm1 _ _ _) => eapply linked_eq; [apply skel_asm1|]; lkt
  | |- linked (put_path _ _) => eapply linked_eq; [apply skel_path|]; lkt
  | |- linked (patch_b _ _ _) => eapply linked_eq; [apply skel_patch_b|]; lkt
  | |- linked (set_loop _ _) => eapply linked_eq; [apply skel_loop|]; lkt
  | |- linked (load_value _ _ _) => eapply linked_eq; [apply skel_load|]; lkt
  | |- linked (loadname _ _ _) => eapply linked_eq; [apply skel_loadname|]; lkt
  | |- linked (endloop _ _ _ _ _) => eapply linked_eq; [apply skel_endloop|]; lkt
  | |- linked (decl _ _) => apply linked_decl; lkt
  | |- linked (useup _ _) => apply linked_useup; lkt
  | |- linked (cexp ?e _ _) => match goal with IH : context [cexp e] |- _ => apply IH; lkt end
  | |- linked (cexps ?e _ _) => match goal with IH : context [cexps e] |- _ => apply IH; lkt end
  | |- linked (citems ?e _ _) => match goal with IH : context [citems e] |- _ => apply IH; lkt end
  | |- linked (cargs ?e _ _) => match goal with IH : context [cargs e] |- _ => apply IH; lkt end
  | |- linked (cclauses ?e _ _) => match goal with IH : context [cclauses e] |- _ => apply IH; lkt end
  | |- linked ?c => first [assumption | match goal with K : skel c = skel ?b |- _ => eapply linked_eq; [exact K|]; lkt end]
  end.
Ltac pvk := repeat match goal with |- context [put_value ?n ?c] =>
  let H := fresh "PV" in pose proof (skel_value n c) as H; destruct (put_value n c) as [? ?]; cbn [fst] in H end.
Lemma linked_fun r ps c : linked c -> linked (PN_REG 0 (mkC (pb0 ps ps) (c_f (PN_REG r c) :: c_up (PN_REG r c)) (c_tbl (PN_REG r c)) None)).
Proof.
  intros K. eapply linked_eq; [apply skel_reg|]. unfold linked, lkk, skel. cbn [c_f c_up pb0 b_upvals b_locals fst snd lks].
  split; [intros x [=]|]. pose proof (f_equal (fun k => lkk k) (skel_reg r c)) as Q. unfold linked in K. rewrite <- Q in K. exact K.
Qed.
Lemma cexp_linked :
  (forall e r c, linked c -> linked (cexp e r c))
  /\ (forall es, (forall r c, linked c -> linked (cexps es r c)) /\ (forall r c, linked c -> linked (citems es r c)) /\ (forall r c, linked c -> linked (cargs es r c)))
  /\ (forall k r c, linked c -> linked (cclauses k r c)).
Proof.
  apply exp_ind3; intros; repeat match goal with IH : _ /\ _ |- _ => destruct IH end;
   try (match goal with |- _ /\ _ => repeat apply conj end; intros); cbn [cexp cexps citems cargs cclauses]; cbv zeta; pvk; try lkt.
  - destruct post; lkt.
  - destruct up, k; cbv zeta; pvk; lkt.
  - match goal with IH : forall r c, _ -> linked (cexps b r c) |- _ => specialize (IH 0 _ (linked_fun r ps c ltac:(eassumption))); revert IH end.
    destruct (fun_up ps 0 (PN_REG r c) b) as (t & up & U & _). set (c1 := cexps b 0 _) in *. intros IH.
    unfold linked. erewrite skel_endfun by exact U. unfold linked, lkk, skel in IH. rewrite U in IH. cbn [fst snd lks] in IH. apply IH.
Qed.
