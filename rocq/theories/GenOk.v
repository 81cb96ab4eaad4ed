(** The structural compiler produces [gen]. *)
From Verif Require Import Base Arr GArr WordModel AsmModel CompileModel VmModel SrcSpec CompileProofs CompileEq CompileExt CodeGen GenLem.
From Coq Require Import ZifyBool.
Ltac Zify.zify_post_hook ::= Z.div_mod_to_equations.

(** the final code [P] agrees with the code emitted so far, up to the pending
    jumps, which go to [tb] (break) and [tc] (continue) *)
Definition mt (P : list instr) (tb tc lo hi : Z) (c : cst) : Prop :=
  forall i, lo <= i < hi -> gnth P i =
    if memb i (snd (loops c)) then Some (I O_JMP (tc - i - 1) 0)
    else if memb i (fst (loops c)) then Some (I O_JMP (tb - i - 1) 0)
    else gnth (code c) i.
Lemma mt_sub P tb tc lo hi lo' hi' c c' : mt P tb tc lo hi c' -> ext c c' -> lo <= lo' -> hi' <= hi -> hi' <= oplen c ->
  mt P tb tc lo' hi' c.
Proof.
  intros M X A B C i D. rewrite M by lia. destruct (ext_memb _ _ i X) as (-> & ->); [lia|].
  destruct X. rewrite x_code by lia. reflexivity.
Qed.
Lemma mt_pb P tb tc lo hi lo' hi' j v c : mt P tb tc lo hi (patch_b j v c) -> lo <= lo' -> hi' <= hi -> j < lo' \/ hi' <= j ->
  mt P tb tc lo' hi' c.
Proof.
  intros M A B C i D. rewrite M by lia. rewrite patch_b_at. replace (i =? j) with false by lia. reflexivity.
Qed.
Lemma mt_reg P tb tc lo hi r c : mt P tb tc lo hi (PN_REG r c) -> mt P tb tc lo hi c.
Proof.
  intros M i D. rewrite M by lia. unfold code, PN_REG, onf. cbn. destruct (_ <=? _); reflexivity.
Qed.
Lemma mt_at P tb tc lo hi j c c' : mt P tb tc lo hi c' -> ext c c' -> fr j c -> j < oplen c -> lo <= j < hi ->
  gnth P j = gnth (code c) j.
Proof.
  intros M X (F1 & F2) L D. rewrite M by lia. destruct (ext_memb _ _ j X L) as (-> & ->). rewrite F1, F2. destruct X. apply x_code. lia.
Qed.
Lemma asm_at o a b c : gnth (code (asm2 o a b c)) (oplen c) = Some (I o a b).
Proof. unfold code. cbn. unfold oplen. rewrite gnth_app2 by lia. rewrite Z.sub_diag. reflexivity. Qed.
Lemma mt_asm P tb tc lo hi o a b c c' : mt P tb tc lo hi c' -> ext (asm2 o a b c) c' -> lok c -> lo <= oplen c < hi ->
  gnth P (oplen c) = Some (I o a b).
Proof.
  intros M X K D. rewrite (mt_at _ _ _ _ _ _ _ _ M X); [apply asm_at|exact (fr_now c K)|rewrite oplen_asm2; lia|exact D].
Qed.
Lemma mt_jmp P tb tc lo hi o a b v c c2 c' : mt P tb tc lo hi c' -> ext (patch_b (oplen c) v c2) c' -> ext (asm2 o a b c) c2 -> lok c ->
  lo <= oplen c < hi -> gnth P (oplen c) = Some (I o a v).
Proof.
  intros M X Y K D. rewrite (mt_at _ _ _ _ _ _ _ _ M X).
  - rewrite patch_b_at, Z.eqb_refl. pose proof (oplen_asm2 o a b c) as Q. destruct Y. rewrite x_code, asm_at by lia. reflexivity.
  - apply fr_pb. eapply fr_asm; eassumption.
  - pose proof (oplen_asm2 o a b c) as Q. rewrite oplen_patch_b. destruct Y. lia.
  - exact D.
Qed.
Lemma sx0 : sx12 0 = 0. Proof. reflexivity. Qed.
(* the loop: jumps inside the body *)
Lemma mt_loop P tb tc lo hi j2 j1 r c1 cb : mt P tb tc lo hi (endloop j2 j1 (c_loop c1) r cb) ->
  lok c1 -> lok cb -> ext (set_loop (Some ([], [])) c1) cb -> lo <= oplen c1 -> oplen cb < hi ->
  (forall j, j1 = Some j -> j < oplen c1) ->
  mt P (oplen cb + 1) j2 (oplen c1) (oplen cb) cb
  /\ gnth P (oplen cb) = Some (I O_JMP (j2 - oplen cb - 1) 0).
Proof.
  intros M K1 Kb X Lo Hi J. pose proof (ext_le _ _ X) as Le. rewrite oplen_loop in Le.
  assert (Fr : forall i, oplen c1 <= i -> fr i c1).
  { intros i Li. unfold fr. destruct (memb i (fst (loops c1))) eqn:E1; [destruct (K1 _ (or_introl E1)); lia|].
    destruct (memb i (snd (loops c1))) eqn:E2; [destruct (K1 _ (or_intror E2)); lia|]. auto. }
  split.
  - intros i D. rewrite M by lia. rewrite loops_endloop. change (match c_loop c1 with Some p => p | None => ([], []) end) with (loops c1).
    destruct (Fr i) as (-> & ->); [lia|]. rewrite endloop_code; [|lia|intros j E; specialize (J j E); lia]. cbv zeta.
    assert (G : match j1 with
           | Some j => if i =? j then option_map (fun x => mkI (ic x) (ia x) (sx12 (oplen cb + 1 - j - 1))) (gnth (code cb) i)
                       else gnth (code cb) i
           | None => gnth (code cb) i end = gnth (code cb) i).
    { destruct j1 as [j|]; [|reflexivity]. specialize (J j eq_refl). replace (i =? j) with false by lia. reflexivity. }
    rewrite G. destruct (memb i (snd (loops cb))) eqn:E2.
    + destruct (Kb i (or_intror E2)) as (_ & ->). destruct (memb i (fst (loops cb))); reflexivity.
    + destruct (memb i (fst (loops cb))) eqn:E1; [|reflexivity]. destruct (Kb i (or_introl E1)) as (_ & ->). reflexivity.
  - rewrite M by lia. rewrite loops_endloop. change (match c_loop c1 with Some p => p | None => ([], []) end) with (loops c1).
    destruct (Fr (oplen cb)) as (-> & ->); [lia|].
    unfold endloop. cbv zeta.
    match goal with |- gnth (code (PN_REG ?r (set_loop ?o ?d))) ?i = _ => change (gnth (code (PN_REG r (set_loop o d))) i) with (gnth (code (PN_REG r d)) i) end.
    assert (R : forall d i, gnth (code (PN_REG (r + 1) d)) i = gnth (code d) i).
    { intros d i. unfold code, PN_REG, onf. cbn. destruct (_ <=? _); reflexivity. }
    rewrite R, patch_all_at, patch_all_at. destruct (fr_now cb Kb) as (-> & ->).
    destruct j1 as [j|].
    + specialize (J j eq_refl). rewrite patch_b_at. replace (oplen cb =? j) with false by lia. apply asm_at.
    + apply asm_at.
Qed.
Lemma mt_loopjmp P tb tc lo hi j2 r o a b c0 cb : let c1 := asm2 o a b c0 in
  mt P tb tc lo hi (endloop j2 (Some (oplen c0)) (c_loop c1) r cb) ->
  lok c0 -> ext (set_loop (Some ([], [])) c1) cb -> lo <= oplen c0 < hi ->
  gnth P (oplen c0) = Some (I o a (oplen cb + 1 - oplen c0 - 1)).
Proof.
  intros c1 M K X D. assert (K1 : lok c1) by (apply lok_asm2; exact K).
  pose proof (ext_le _ _ X) as Le. rewrite oplen_loop in Le. unfold c1 in Le. rewrite oplen_asm2 in Le.
  rewrite M by lia. rewrite loops_endloop. change (match c_loop c1 with Some p => p | None => ([], []) end) with (loops c0).
  destruct (fr_now c0 K) as (-> & ->). rewrite endloop_code; [|lia|intros j [= <-]; lia]. cbv zeta.
  rewrite Z.eqb_refl. destruct (ext_memb _ _ (oplen c0) X) as (M1 & M2); [rewrite oplen_loop; unfold c1; rewrite oplen_asm2; lia|].
  rewrite M1, M2. cbn.
  destruct X. rewrite x_code by (rewrite oplen_loop; unfold c1; rewrite oplen_asm2; lia).
  change (code (set_loop (Some ([], [])) c1)) with (code c1). unfold c1. rewrite asm_at. reflexivity.
Qed.

Section Tbl.
Context (tbl : list pb) (upper : Z -> bool).
Definition fin (F : pb) (c : cst) : Prop :=
  pre (b_values (c_f c)) (b_values F) /\ pre (b_locals (c_f c)) (b_locals F) /\ pre (b_upvals (c_f c)) (b_upvals F)
  /\ pre (b_protos (c_f c)) (b_protos F) /\ pre (c_tbl c) tbl.
Lemma fin_down F c c' : fin F c' -> ext c c' -> fin F c.
Proof. intros (A & B & C & D & E) []. unfold fin. eauto 10 using pre_trans. Qed.
Lemma fin_pb F j v c : fin F (patch_b j v c) -> fin F c. Proof. exact (fun H => H). Qed.
Lemma fin_loop F l c : fin F (set_loop l c) -> fin F c. Proof. exact (fun H => H). Qed.
Lemma fin_reg F r c : fin F (PN_REG r c) -> fin F c.
Proof. intros H. eapply fin_down; [exact H|apply ext_reg]. Qed.
Lemma fin_endloop F j2 j1 o r c : fin F (endloop j2 j1 o r c) -> fin F c.
Proof.
  unfold endloop. cbv zeta. intros H. apply fin_reg, fin_loop in H.
  assert (Q : forall l t d, fin F (patch_all l t d) -> fin F d).
  { unfold patch_all. induction l; intros t d K; cbn in K; [exact K|]. apply IHl in K. exact K. }
  apply Q, Q in H. destruct j1; [apply fin_pb in H|]; (eapply fin_down; [exact H|apply ext_asm2]).
Qed.
Definition dis (F : pb) : Prop := forall x, memb x (b_upvals F) = true -> memb x (b_locals F) = false.

(** a compiled function *)
Definition fun_ok (q : Z * (list Z * exps)) : Prop :=
  let '(l, (ps, b)) := q in
  exists g, gnth tbl l = Some g
    /\ has (b_code g) 0 (gens tbl g b 0 0 0 0 ++ [I O_RETURN 0 0])
    /\ zlen (b_code g) = size_all tbl b + 1
    /\ gok_all tbl g b /\ need_all b + 1 <= b_stack g
    /\ b_sig g = ps /\ pre ps (b_locals g) /\ nodup ps = true /\ dis g /\ b_upvals g = captured ps b /\ b_locals g = vars ps b.
End Tbl.
