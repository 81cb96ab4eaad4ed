(** The effect of single instructions of the interpreter inside one frame. *)
From Verif Require Import Base Arr GArr WordModel NumModel AsmModel SigModel CompileModel VmModel SrcSpec CompileProofs CodeGen.
From Coq Require Import ZifyBool.
Ltac Zify.zify_post_hook ::= Z.div_mod_to_equations.

Notation supd := Arr.upd.
Notation eupd := SrcSpec.upd.

Lemma u32_id x : 0 <= x < 4096 -> u32 x = x.
Proof. unfold u32, two32. intros. rewrite Z.mod_small by lia. reflexivity. Qed.
Lemma sx12_small x : -2048 <= x < 2048 -> sx12 x = x.
Proof. unfold sx12. intros. rewrite Z.mod_small by lia. lia. Qed.
Lemma rd_val l i v : 0 <= i < zlen l -> znth l i = v -> rd l i = Ok v.
Proof. intros R <-. apply rd_ok, R. Qed.

Lemma lor_imm b : 0 <= b < 1024 -> Z.lor b ASM_TPL_IMM = b + 1024.
Proof.
  intros B. rewrite Z.add_nocarry_lxor; [symmetry; apply Z.lxor_lor|].
  all: apply Z.bits_inj'; intros n N; rewrite Z.land_spec, Z.bits_0; unfold ASM_TPL_IMM; change 1024 with (2 ^ 10); rewrite Z.pow2_bits_eqb by lia;
    (destruct (10 =? n) eqn:E; [|apply andb_false_r]); apply Z.eqb_eq in E; subst n; rewrite andb_true_r;
    (destruct (Z.eq_dec b 0) as [->|D]; [apply Z.bits_0|]); apply Z.bits_above_log2; [lia|]; apply Z.log2_lt_pow2; lia.
Qed.

Section Star.
Context {W : Type} (H : host W) (tbl : list pb) (is_str : Z -> bool) (STR0 : Z).
Definition run1 (s s' : vst W) : Prop := forall nested, step H tbl is_str STR0 nested s = Ok (SRun s').
Inductive star : vst W -> vst W -> Prop :=
| star_refl s : star s s
| star_step s s1 s2 : run1 s s1 -> star s1 s2 -> star s s2.
Lemma star_one s s' : run1 s s' -> star s s'.
Proof. intros K. eapply star_step; [exact K|constructor]. Qed.
Lemma star_trans s1 s2 s3 : star s1 s2 -> star s2 s3 -> star s1 s3.
Proof. induction 1; [auto|]. intros K. eapply star_step; eauto. Qed.
Lemma star_snoc s1 s2 s3 : star s1 s2 -> run1 s2 s3 -> star s1 s3.
Proof. intros A B. eapply star_trans; [exact A|apply star_one, B]. Qed.

(** limits of the instruction format *)
Definition small (g : pb) : Prop :=
  zlen (b_code g) <= 2047 /\ zlen (b_values g) <= 2047 /\ zlen (b_locals g) <= 2047
  /\ zlen (b_upvals g) <= 2047 /\ zlen (b_protos g) <= 2047 /\ b_stack g <= 1024.


Section Frame.
Context (fid : Z) (F : pb) (cu : Z).
Let nu := zlen (b_upvals F).
Let nl := zlen (b_locals F).
Let reg := regbase cu F.
Context (PF : gnth tbl fid = Some F) (SM : small F) (CU : 0 <= cu)
        (RM : reg + b_stack F <= 4096).
Local Notation St st pos w fs := (mkV st cu fid pos w fs).
Definition op (pos : Z) (o : opc) (a b : Z) : Prop := gnth (b_code F) pos = Some (mkI o a b).
Definition rok (a : Z) : Prop := 0 <= a < b_stack F.

Lemma opI pos o a b : gnth (b_code F) pos = Some (I o a b) -> -2048 <= a < 2048 -> -2048 <= b < 2048 -> op pos o a b.
Proof. intros E A B. unfold op. rewrite E. unfold I. rewrite !sx12_small by assumption. reflexivity. Qed.
Lemma op_range pos o a b : op pos o a b -> 0 <= pos < 2047.
Proof. intros K. apply gnth_Some in K. destruct SM. lia. Qed.
Lemma reg_ge : cu + nu + nl + 1 = reg. Proof. unfold reg, regbase, nu, nl, upvalsize, localsize. lia. Qed.

Ltac go1 OP := let P := fresh in pose proof (op_range _ _ _ _ OP) as P; pose proof (gnth_Some _ _ _ OP) as P2;
  pose proof reg_ge; pose proof (zlen_nonneg (b_upvals F)) as P3; pose proof (zlen_nonneg (b_locals F)) as P4; fold nu in P3; fold nl in P4; unfold rok in *; intros nested; unfold step; cbn [v_st v_w v_f v_cu v_pos v_fs];
  unfold proto_at, grd; rewrite PF; cbn [bind]; replace (_ <? zlen (b_code F)) with true by lia; cbn [negb]; unfold instr_at; rewrite OP;
  cbv zeta; fold reg; cbv beta iota.
Ltac rr := rewrite ?rd_ok by lia; cbn [bind]; rewrite ?wr_ok by (rewrite ?zlen_upd; lia); cbn [bind]; rewrite ?u32_id by lia; try reflexivity.

Lemma x_move st pos w fs a b : op pos O_MOVE a b -> rok a -> rok b -> zlen st = 4096 ->
  run1 (St st pos w fs) (St (supd st (reg + a) (znth st (reg + b))) (pos + 1) w fs).
Proof. intros OP A B Z. go1 OP. rr. Qed.
Lemma x_loadk st pos w fs a b : op pos O_LOADK a b -> rok a -> 0 <= b < zlen (b_values F) -> zlen st = 4096 ->
  run1 (St st pos w fs) (St (supd st (reg + a) (znth (b_values F) b)) (pos + 1) w fs).
Proof. intros OP A B Z. go1 OP. rr. Qed.
Lemma x_loadpn st pos w fs a b : op pos O_LOADPN a b -> rok a -> zlen st = 4096 ->
  run1 (St st pos w fs) (St (supd st (reg + a) (u64 b)) (pos + 1) w fs).
Proof. intros OP A Z. go1 OP. rr. Qed.
Lemma x_self st pos w fs a b : op pos O_SELF a b -> rok a -> zlen st = 4096 ->
  run1 (St st pos w fs) (St (supd st (reg + a) (znth st (reg - 1))) (pos + 1) w fs).
Proof. intros OP A Z. go1 OP. replace (reg + -1) with (reg - 1) by lia. rr. Qed.
Lemma x_getlocal st pos w fs a b v w' : op pos O_GETLOCAL a b -> rok a -> 0 <= b < nl -> zlen st = 4096 ->
  getlocal H w (znth st (cu + nu + b)) = Ok (w', v) ->
  run1 (St st pos w fs) (St (supd st (reg + a) v) (pos + 1) w' fs).
Proof. intros OP A B Z G. go1 OP. change (upvalsize F) with nu. rr. rewrite G. cbn [bind fst snd]. rr. Qed.
Lemma x_setlocal st pos w fs a b v w' : op pos O_SETLOCAL a b -> rok a -> 0 <= b < nl -> zlen st = 4096 ->
  setlocal H w (znth st (cu + nu + b)) (znth st (reg + a)) = Ok (w', v) ->
  run1 (St st pos w fs) (St (supd st (cu + nu + b) v) (pos + 1) w' fs).
Proof. intros OP A B Z G. go1 OP. change (upvalsize F) with nu. rr. rewrite G. cbn [bind fst snd]. rr. Qed.
Lemma x_getupval st pos w fs a b v w' : op pos O_GETUPVAL a b -> rok a -> 0 <= b < nu -> zlen st = 4096 ->
  h_prim H P_deref w [znth st (cu + b)] = Ok (w', v) ->
  run1 (St st pos w fs) (St (supd st (reg + a) v) (pos + 1) w' fs).
Proof. intros OP A B Z G. go1 OP. rr. rewrite G. cbn [bind fst snd]. rr. Qed.
Lemma x_setupval st pos w fs a b v w' : op pos O_SETUPVAL a b -> rok a -> 0 <= b < nu -> zlen st = 4096 ->
  h_prim H P_setref w [znth st (cu + b); znth st (reg + a)] = Ok (w', v) ->
  run1 (St st pos w fs) (St st (pos + 1) w' fs).
Proof. intros OP A B Z G. go1 OP. rr. rewrite G. cbn [bind fst snd]. rr. Qed.
Lemma x_global st pos w fs a b v w' : op pos O_GLOBAL a b -> rok a -> rok b -> zlen st = 4096 ->
  h_prim H P_global w [znth st (reg + a); znth st (reg + b)] = Ok (w', v) ->
  run1 (St st pos w fs) (St (supd st (reg + a) (znth st (reg + b))) (pos + 1) w' fs).
Proof. intros OP A B Z G. go1 OP. rr. rewrite G. cbn [bind fst snd]. rr. Qed.
Lemma x_newtuple st pos w fs a b v w' : op pos O_NEWTUPLE a b -> rok a -> zlen st = 4096 ->
  h_prim H P_tuple w [] = Ok (w', v) ->
  run1 (St st pos w fs) (St (supd st (reg + a) v) (pos + 1) w' fs).
Proof. intros OP A Z G. go1 OP. rewrite G. cbn [bind fst snd]. rr. Qed.
Lemma x_settuple st pos w fs a b v w' : op pos O_SETTUPLE a b -> rok a -> rok b -> zlen st = 4096 ->
  h_prim H P_push w [znth st (reg + a); znth st (reg + b)] = Ok (w', v) ->
  run1 (St st pos w fs) (St (supd st (reg + a) v) (pos + 1) w' fs).
Proof. intros OP A B Z G. go1 OP. rr. rewrite G. cbn [bind fst snd]. rr. Qed.
Lemma x_getpath st pos w fs a b v w' : op pos O_GETPATH a b -> rok a -> rok b -> zlen st = 4096 ->
  h_prim H P_obj_get w [znth st (reg + a); znth st (reg + b)] = Ok (w', v) ->
  run1 (St st pos w fs) (St (supd st (reg + a) v) (pos + 1) w' fs).
Proof. intros OP A B Z G. go1 OP. rr. rewrite G. cbn [bind fst snd]. rr. Qed.
Lemma x_setpath st pos w fs a b v w' : op pos O_SETPATH a b -> rok a -> rok (a + 1) -> rok b -> zlen st = 4096 ->
  h_prim H P_obj_set w [znth st (reg + a); znth st (reg + (a + 1)); znth st (reg + b)] = Ok (w', v) ->
  run1 (St st pos w fs) (St st (pos + 1) w' fs).
Proof. intros OP A A1 B Z G. go1 OP. rr. rewrite G. cbn [bind fst snd]. rr. Qed.
Lemma x_bind st pos w fs a b v w' : op pos O_BIND a b -> rok a -> rok b -> zlen st = 4096 ->
  h_prim H P_bind w [znth st (reg + b); znth st (reg + a)] = Ok (w', v) ->
  run1 (St st pos w fs) (St (supd st (reg + a) v) (pos + 1) w' fs).
Proof. intros OP A B Z G. go1 OP. rr. rewrite G. cbn [bind fst snd]. rr. Qed.
Lemma x_msg st pos w fs a b v w' : op pos O_MSG a b -> rok a -> rok b -> zlen st = 4096 ->
  h_prim H P_message w [znth st (reg + b); znth st (reg + a)] = Ok (w', v) ->
  run1 (St st pos w fs) (St (supd st (reg + a) v) (pos + 1) w' fs).
Proof. intros OP A B Z G. go1 OP. rr. rewrite G. cbn [bind fst snd]. rr. Qed.
Lemma x_newlick st pos w fs a n v w' : op pos O_NEWLICK a (a + n) -> 0 <= n <= 2 -> rok a -> rok (a + n) -> zlen st = 4096 ->
  h_prim H P_lick w [znth st (reg + a); if 0 <? n then znth st (reg + (a + 1)) else PN_NIL; if 1 <? n then znth st (reg + (a + 2)) else PN_NIL] = Ok (w', v) ->
  run1 (St st pos w fs) (St (supd st (reg + a) v) (pos + 1) w' fs).
Proof.
  intros OP N A B Z G. assert (C : n = 0 \/ n = 1 \/ n = 2) by lia. destruct C as [-> | [-> | ->]]; cbn [Z.ltb Z.compare Pos.compare Pos.compare_cont] in G.
  - rewrite Z.add_0_r in *. go1 OP. replace (a <? a) with false by lia. replace (a + 1 <? a) with false by lia. rr. rewrite G. cbn [bind fst snd]. rr.
  - go1 OP. replace (a <? a + 1) with true by lia. replace (a + 1 <? a + 1) with false by lia. rr. rewrite G. cbn [bind fst snd]. rr.
  - assert (A1 : rok (a + 1)) by (unfold rok in *; lia).
    go1 OP. replace (a <? a + 2) with true by lia. replace (a + 1 <? a + 2) with true by lia. rr. rewrite G. cbn [bind fst snd]. rr.
Qed.
Lemma x_gettable st pos w fs a b v w' : op pos O_GETTABLE a b -> rok a -> rok b -> zlen st = 4096 ->
  h_prim H P_table_at w [znth st (reg + a); znth st (reg + b)] = Ok (w', v) ->
  run1 (St st pos w fs) (St (supd st (reg + a) v) (pos + 1) w' fs).
Proof. intros OP A B Z G. go1 OP. rr. rewrite G. cbn [bind fst snd]. rr. Qed.
(* an index that is part of the instruction *)
Lemma x_gettuple_imm st pos w fs a i v w' : op pos O_GETTUPLE a i -> rok a -> 0 <= i < 1024 -> zlen st = 4096 ->
  h_prim H P_tuple_at w [znth st (reg + a); PN_NUM i] = Ok (w', v) ->
  run1 (St st pos w fs) (St (supd st (reg + a) v) (pos + 1) w' fs).
Proof.
  intros OP A B Z G. go1 OP. rr. assert (Z.land i ASM_TPL_IMM = 0) as ->.
  { apply Z.bits_inj'. intros n N. rewrite Z.land_spec, Z.bits_0. unfold ASM_TPL_IMM. change 1024 with (2 ^ 10). rewrite Z.pow2_bits_eqb by lia.
    destruct (10 =? n) eqn:E; [|apply andb_false_r]. apply Z.eqb_eq in E. subst n. rewrite andb_true_r.
    destruct (Z.eq_dec i 0) as [->|D]; [apply Z.bits_0|]. apply Z.bits_above_log2; [lia|]. apply Z.log2_lt_pow2; lia. }
  cbn [negb Z.eqb bind]. rewrite G. cbn [bind fst snd]. rr.
Qed.
(* an index that is in a register *)
Lemma x_gettuple_reg st pos w fs a b v w' : op pos O_GETTUPLE a (Z.lor b ASM_TPL_IMM) -> rok a -> rok b -> b < 1024 -> zlen st = 4096 ->
  h_prim H P_tuple_at w [znth st (reg + a); PN_NUM (PN_INT (znth st (reg + b)))] = Ok (w', v) ->
  run1 (St st pos w fs) (St (supd st (reg + a) v) (pos + 1) w' fs).
Proof.
  intros OP A B B1 Z G. assert (B0 : 0 <= b) by (unfold rok in B; lia). rewrite lor_imm in OP by lia. go1 OP. rr.
  assert (Z.land (b + 1024) ASM_TPL_IMM = 1024) as ->.
  { rewrite <- lor_imm by lia. apply Z.bits_inj'. intros n N. rewrite Z.land_spec, Z.lor_spec.
    unfold ASM_TPL_IMM. destruct (Z.testbit 1024 n), (Z.testbit b n); reflexivity. }
  cbn [negb Z.eqb]. replace (b + 1024 - ASM_TPL_IMM) with b by (unfold ASM_TPL_IMM; lia). rr. rewrite G. cbn [bind fst snd]. rr.
Qed.
Lemma x_not st pos w fs a b : op pos O_NOT a b -> rok a -> zlen st = 4096 ->
  run1 (St st pos w fs) (St (supd st (reg + a) (PN_BOOL (negb (PN_TEST (znth st (reg + a)))))) (pos + 1) w fs).
Proof. intros OP A Z. go1 OP. rr. Qed.
Lemma x_bitn_int st pos w fs a b : op pos O_BITN a b -> rok a -> rok b -> zlen st = 4096 -> PN_IS_INT (znth st (reg + b)) = true ->
  run1 (St st pos w fs) (St (supd st (reg + a) (num_bitn (znth st (reg + b)))) (pos + 1) w fs).
Proof. intros OP A B Z G. go1 OP. rr. rewrite G. rr. Qed.
Lemma x_bitn st pos w fs a b v w' : op pos O_BITN a b -> rok a -> rok b -> zlen st = 4096 -> PN_IS_INT (znth st (reg + b)) = false ->
  h_prim H P_bitn w [znth st (reg + b)] = Ok (w', v) ->
  run1 (St st pos w fs) (St (supd st (reg + a) v) (pos + 1) w' fs).
Proof. intros OP A B Z G P. go1 OP. rr. rewrite G, P. cbn [bind fst snd]. rr. Qed.
Lemma x_jmp st pos w fs a b : op pos O_JMP a b -> 0 <= pos + a + 1 < 4096 ->
  run1 (St st pos w fs) (St st (pos + a + 1) w fs).
Proof. intros OP A. go1 OP. rr. Qed.
Lemma x_testjmp st pos w fs a b : op pos O_TESTJMP a b -> rok a -> zlen st = 4096 -> 0 <= pos + b + 1 < 4096 ->
  run1 (St st pos w fs) (St st (if PN_TEST (znth st (reg + a)) then pos + b + 1 else pos + 1) w fs).
Proof. intros OP A Z B. go1 OP. rr. destruct (PN_TEST _); rr. Qed.
Lemma x_notjmp st pos w fs a b : op pos O_NOTJMP a b -> rok a -> zlen st = 4096 -> 0 <= pos + b + 1 < 4096 ->
  run1 (St st pos w fs) (St st (if PN_TEST (znth st (reg + a)) then pos + 1 else pos + b + 1) w fs).
Proof. intros OP A Z B. go1 OP. rr. destruct (PN_TEST _); cbn [negb]; rr. Qed.

(** operators *)
Definition is_bin (o : opc) : bool :=
  match o with
  | O_ADD | O_SUB | O_MULT | O_DIV | O_REM | O_POW | O_CMP | O_EQ | O_NEQ | O_LT | O_LTE | O_GT | O_GTE | O_BITL | O_BITR => true
  | _ => false
  end.
Lemma x_bin st pos w fs o a b v w' : is_bin o = true -> op pos o a b -> rok a -> rok b -> zlen st = 4096 ->
  binop H o w (znth st (reg + a)) (znth st (reg + b)) = Ok (w', inl v) ->
  run1 (St st pos w fs) (St (supd st (reg + a) v) (pos + 1) w' fs).
Proof. intros IB OP A B Z G. go1 OP. destruct o; try discriminate IB; rr; rewrite G; cbn [bind fst snd]; rr. Qed.
Lemma x_bin_err st pos w fs o a b v w' : is_bin o = true -> op pos o a b -> rok a -> rok b -> zlen st = 4096 ->
  binop H o w (znth st (reg + a)) (znth st (reg + b)) = Ok (w', inr v) ->
  forall nested, step H tbl is_str STR0 nested (St st pos w fs) = Ok (SDone w' fs v).
Proof. intros IB OP A B Z G. go1 OP. destruct o; try discriminate IB; rr; rewrite G; cbn [bind fst snd]; rr. Qed.
End Frame.
End Star.
