(** potion_source_asmb on the tree of an expression is the structural compiler. *)
From Verif Require Import Base Arr GArr WordModel WordProofs AsmModel CompileModel VmModel SrcSpec CompileProofs.
From Coq Require Import ZifyBool.
Ltac Zify.zify_post_hook ::= Z.div_mod_to_equations.

Lemma bind_Ok {A B} (r : res A) (k : A -> res B) y : bind r k = Ok y -> exists x, r = Ok x /\ k x = Ok y.
Proof. destruct r; cbn; [eauto|discriminate|discriminate]. Qed.
Ltac dob H := let x := fresh "x" in let E := fresh "E" in
  apply bind_Ok in H; destruct H as (x & E & H).
Lemma reg_idem r c : PN_REG r (PN_REG r c) = PN_REG r c.
Proof.
  destruct c as [f up t lo]. unfold PN_REG, onf. cbn. f_equal.
  destruct (b_stack f <=? r) eqn:E; [|rewrite E; reflexivity].
  replace (b_stack (set_stack f (r + 1)) <=? r) with false by (cbn; lia). reflexivity.
Qed.
Lemma oplen_reg r c : oplen (PN_REG r c) = oplen c.
Proof. unfold oplen, PN_REG, onf. cbn. destruct (_ <=? _); reflexivity. Qed.
Lemma lidx_reg r c x : lidx (PN_REG r c) x = lidx c x.
Proof. unfold lidx, PN_REG, onf. cbn. destruct (_ <=? _); reflexivity. Qed.
Lemma u8_id r : 0 <= r <= 255 -> u8 r = r.
Proof. unfold u8. intros. rewrite Z.mod_small; lia. Qed.
Lemma elen_nonneg es : 0 <= elen es.
Proof. induction es; cbn; lia. Qed.
Lemma need_nonneg :
  (forall e, 0 <= need e) /\ (forall es, 0 <= need_all es /\ 0 <= need_items es /\ 0 <= need_args es /\ elen es <= need_args es)
  /\ (forall k, 0 <= need_clauses k).
Proof. apply exp_ind3; intros; cbn [need need_all need_items need_args need_clauses elen]; repeat match goal with |- context [if ?b then _ else _] => destruct b end; try lia. destruct k; lia. Qed.

(** unfolding equations of the static rules *)
Section WfEq.
Context (upper : Z -> bool).
Lemma wf_eq (enc : list (list Z)) (lp : bool) (L : list Z) (e : exp) : wf upper enc lp L e =
    match e with
    | ELit _ | ESelf => Some L
    | EVar x => guard (plain x && memb x L) (Some L)
    | EUp x => guard (plain x && negb (memb x L) && owned enc x) (Some L)
    | EBin p a b => guard (src_op p && operand a && operand b)
                      (obind (wf upper enc lp L a) (fun L => wf upper enc lp L b))
    | ENot a | EBitn a => guard (operand a) (wf upper enc lp L a)
    | EAnd a b | EOr a b => guard (operand a && operand b)
                              (obind (wf upper enc lp L a) (fun L => wf upper enc lp L b))
    | ESet x e => guard (negb (upper x) && (memb x L || negb (owned enc x)) && negb (head_seq e))
                    (wf upper enc lp (add x L) e)
    | EUpSet x e => guard (negb (upper x) && negb (memb x L) && owned enc x && negb (head_seq e))
                      (wf upper enc lp L e)
    | EGlob x e => guard (upper x && negb (head_seq e)) (wf upper enc lp L e)
    | EInc x _ _ => guard (memb x L) (Some L)
    | EPath _ => Some L
    | EPathOf e _ => guard (negb (head_seq e)) (wf upper enc lp L e)
    | EPathSet _ e => guard (negb (head_seq e)) (wf upper enc lp L e)
    | EList es => wf_items upper enc lp L es
    | ESend e m es => guard (plain m && negb (head_seq e))
                        (obind (wf upper enc lp L e) (fun L => wf_items upper enc lp L es))
    | ESend0 e m => guard (plain m && negb (head_seq e)) (wf upper enc lp L e)
    | ESelfSend m es => guard (plain m && negb (memb m L) && negb (owned enc m)) (wf_items upper enc lp L es)
    | ESelfSend0 m => guard (plain m && negb (memb m L) && negb (owned enc m)) (Some L)
    | ECallVar x es => guard (plain x && memb x L) (wf_items upper enc lp L es)
    | ECallUp x es => guard (plain x && negb (memb x L) && owned enc x) (wf_items upper enc lp L es)
    | ECallVal e es => guard (negb (head_seq e)) (obind (wf upper enc lp L e) (fun L => wf_items upper enc lp L es))
    | EIf c b k => guard (negb (head_seq c) && match k with KEnd => true | _ => keeps_all b end)
                     (obind (wf upper enc lp L c) (fun L =>
                      obind (wf_all upper enc lp L b) (fun L => wf_clauses upper enc lp L k)))
    | EWhile c b => guard (negb (head_seq c)) (obind (wf upper enc lp L c) (fun L => wf_all upper enc true L b))
    | ELoop b => wf_all upper enc true L b
    | EBreak | ECont => guard lp (Some L)
    | EReturn e => guard (negb (head_seq e)) (wf upper enc lp L e)
    | ESeq es => guard (match es with Nil => false | _ => true end) (wf_all upper enc lp L es)
    | ELick _ es => guard (lick_parts es) (wf_items upper enc lp L es)
    | EAt up x k => guard ((if up then negb (memb x L) && owned enc x else memb x L) && key_ok L k) (Some L)
    | EFun _ ps b => guard (nodup ps && (need_all b <=? 255)) (obind (wf_all upper (L :: enc) false ps b) (fun _ => Some L))
    end.
Proof. destruct e; reflexivity. Qed.
Lemma wf_all_eq (enc : list (list Z)) (lp : bool) (L : list Z) (es : exps) : wf_all upper enc lp L es =
    match es with
    | Nil => Some L
    | Cons e es => guard (negb (head_seq e)) (obind (wf upper enc lp L e) (fun L => wf_all upper enc lp L es))
    end.
Proof. destruct es; reflexivity. Qed.
Lemma wf_items_eq (enc : list (list Z)) (lp : bool) (L : list Z) (es : exps) : wf_items upper enc lp L es =
    match es with
    | Nil => Some L
    | Cons e es => guard (negb (head_seq e) && negb (is_assign e))
                     (obind (wf upper enc lp L e) (fun L => wf_items upper enc lp L es))
    end.
Proof. destruct es; reflexivity. Qed.
Lemma wf_clauses_eq (enc : list (list Z)) (lp : bool) (L : list Z) (k : clauses) : wf_clauses upper enc lp L k =
    match k with
    | KEnd => Some L
    | KElse b => wf_all upper enc lp L b
    | KElsif c b k => guard (negb (head_seq c) && match k with KEnd => true | _ => keeps_all b end)
                        (obind (wf upper enc lp L c) (fun L =>
                         obind (wf_all upper enc lp L b) (fun L => wf_clauses upper enc lp L k)))
    end.
Proof. destruct k; reflexivity. Qed.
End WfEq.

Section Eq.
Context (chr0 : Z -> Z).
Notation upper := (isupper chr0).
Notation asmb := (asmb chr0).

Ltac wfinv := repeat match goal with
  | H : guard _ _ = Some _ |- _ => apply guard_Some in H; destruct H as [? H]
  | H : obind _ _ = Some _ |- _ => apply obind_Some in H; destruct H as (? & ? & H)
  | H : Some _ = Some _ |- _ => injection H as H
  | H : _ && _ = true |- _ => apply andb_prop in H; destruct H
  | H : negb _ = true |- _ => apply negb_true_iff in H
  end.
Ltac wfc := try match goal with H : wf _ _ _ _ (EFun _ _ _) = _ |- _ => rewrite wf_fun in H end;
  cbn [wf wf_all wf_items wf_clauses] in *; wfinv.

Lemma cexp_reg :
  (forall e enc lp L L' r c, wf upper enc lp L e = Some L' -> cexp e r (PN_REG r c) = cexp e r c)
  /\ (forall es enc lp L L' r c, wf_all upper enc lp L es = Some L' -> es <> Nil -> cexps es r (PN_REG r c) = cexps es r c)
  /\ (forall k : clauses, True).
Proof.
  apply exp_ind3; intros; wfc; cbn [cexp cexps]; cbv zeta; rewrite ?reg_idem, ?lidx_reg; try reflexivity; try tauto.
  all: try (erewrite H by eassumption; reflexivity).
  - eapply H; [eassumption|]. destruct es; [discriminate|intros; discriminate].
Qed.

Lemma each_i_app rec i l l' r c : each_i rec i (l ++ l') r c = do c <- each_i rec i l r c; each_i rec (i + zlen l) l' r c.
Proof.
  revert i c. induction l as [|t l IH]; intros i c; cbn [each_i app bind].
  - replace (i + zlen []) with i by (unfold zlen; cbn; lia). reflexivity.
  - destruct (rec i t r c); cbn; [|reflexivity|reflexivity]. rewrite IH, zlen_cons.
    replace (i + 1 + zlen l) with (i + (1 + zlen l)) by lia. reflexivity.
Qed.
Lemma asmb_inv k i t r c c' : asmb k i t r c = Ok c' -> exists k', k = S k' /\ node chr0 (asmb k') i t (u8 r) c = Ok c'.
Proof. destruct k; cbn [CompileModel.asmb]; [discriminate|eauto]. Qed.
Lemma each_one rec i t r c c' : each_i rec i [t] r c = Ok c' -> rec i t r c = Ok c'.
Proof. cbn. destruct (rec i t r c); cbn; auto. Qed.

Lemma emb_nonempty : forall e, exists t l, emb e = t :: l.
Proof.
  assert (forall (e : list src) t, exists t' l, (e ++ [t]) = t' :: l) by (intros [|]; cbn; eauto).
  intros e. destruct e; cbn [emb]; eauto.
Qed.
Definition first_ok (e : exp) : Prop := match emb e with t :: _ => sp t <> LIST | [] => False end.
Lemma first_app l t : match l with t :: _ => sp t <> LIST | [] => False end ->
  match l ++ [t] with t :: _ => sp t <> LIST | [] => False end.
Proof. destruct l; cbn; tauto. Qed.
Lemma src_op_spec p : src_op p = true -> p <> LIST /\ p <> EXPR /\ p <> ASSIGN /\ exists o, binop_of p = Some o.
Proof. destruct p; cbn; try discriminate; intros; (split; [discriminate|split; [discriminate|split; [discriminate|eauto]]]). Qed.
Lemma emb_first :
  (forall e enc lp L L', wf upper enc lp L e = Some L' -> head_list e = false -> first_ok e)
  /\ (forall es : exps, True) /\ (forall k : clauses, True).
Proof.
  apply exp_ind3; intros; auto; wfc; cbn [head_list] in *; try discriminate; unfold first_ok in *; cbn [emb];
    try (apply first_app; eapply H; eassumption); cbn; try discriminate.
  - apply src_op_spec. assumption.
  - destruct es as [|a [|b es]]; cbn; discriminate.
Qed.
Lemma bare_one e enc lp L L' : wf upper enc lp L e = Some L' -> bare e = true -> exists t, emb e = [t] /\ sp t <> EXPR /\ (is_assign e = false -> sp t <> ASSIGN).
Proof.
  destruct e; intros; wfc; cbn [bare] in *; try discriminate; cbn [emb]; eexists; (split; [reflexivity|]); cbn.
  1: split; [|intros _]; apply src_op_spec; assumption.
  all: try (split; [discriminate|]; try discriminate).
  destruct es as [|a [|b es]]; (split; [discriminate|intros _; discriminate]).
Qed.

Definition okA (e : exp) : Prop := forall k enc lp L L' r c c',
  wf upper enc lp L e = Some L' -> sc enc L c -> 0 <= r -> r + need e <= 255 -> head_seq e = false ->
  each_i (asmb k) 0 (emb e) r c = Ok c' -> c' = cexp e r c.
Definition okB (e : exp) : Prop := forall k enc lp L L' r c c',
  wf upper enc lp L e = Some L' -> sc enc L c -> 0 <= r -> r + need e <= 255 -> operand e = true ->
  PN_ARG (asmb k) (SSrc (stm e)) r c = Ok c' -> c' = cexp e r c.
Definition okC (e : exp) : Prop := forall k enc lp L L' r c c',
  wf upper enc lp L e = Some L' -> sc enc L c -> 0 <= r -> r + need e <= 255 -> head_seq e = false ->
  asmb k 0 (stm e) r c = Ok c' -> c' = cexp e r c.
Lemma stm_bare e enc lp L L' : wf upper enc lp L e = Some L' -> bare e = true -> exists t, stm e = t /\ emb e = [t] /\ sp t <> EXPR /\ (is_assign e = false -> sp t <> ASSIGN).
Proof.
  intros Hw B. destruct (bare_one _ _ _ _ _ Hw B) as (t & E & Q). exists t. split; [|auto]. unfold stm, wrap. rewrite E, B. reflexivity.
Qed.
Lemma stm_expr e : bare e = false -> stm e = S1 EXPR (STup (emb e)).
Proof. unfold stm, wrap. intros ->. destruct (emb e) as [|t [|]]; reflexivity. Qed.
Lemma okA_C e : okA e -> okC e.
Proof.
  intros HA k enc lp L L' r c c' W S R N D E. pose proof (proj1 need_nonneg e).
  destruct (bare e) eqn:B.
  - destruct (stm_bare _ _ _ _ _ W B) as (t & ES & EM & _). rewrite ES in E.
    eapply HA; try eassumption. rewrite EM. cbn. rewrite E. reflexivity.
  - rewrite (stm_expr _ B) in E. destruct (asmb_inv _ _ _ _ _ _ E) as (k' & -> & E').
    rewrite u8_id in E' by lia. cbn [node sp S1 s0 tup bind] in E'.
    erewrite <- (proj1 cexp_reg) by eassumption. eapply HA; try eassumption.
    unfold sc. rewrite skel_reg. exact S.
Qed.
Lemma head_seq_list : forall e, head_seq e = true -> head_list e = true.
Proof. fix IH 1. destruct e; cbn; try discriminate; try reflexivity; intros; apply IH; assumption. Qed.
Lemma okA_B e : okA e -> is_seq e = false -> okB e.
Proof.
  intros HA Q k enc lp L L' r c c' W S R N D E. unfold operand in D. rewrite Q in D. cbn in D. apply negb_true_iff in D.
  assert (HS : head_seq e = false) by (destruct (head_seq e) eqn:Z; [rewrite (head_seq_list _ Z) in D; discriminate|reflexivity]).
  eapply okA_C; try eassumption. instantiate (1 := k). revert E. unfold PN_ARG.
  destruct (bare e) eqn:B.
  - destruct (stm_bare _ _ _ _ _ W B) as (t & -> & EM & PT & _). destruct t as [p a0 a1 a2]. cbn in PT.
    destruct p; try (intros; assumption). congruence.
  - rewrite (stm_expr _ B). pose proof (proj1 emb_first e _ _ _ _ W D) as F. unfold first_ok in F.
    destruct (emb e) as [|[p a0 a1 a2] l]; [tauto|]. cbn in F. destruct p; try (intros; assumption). congruence.
Qed.
Lemma stm_item e enc lp L L' : wf upper enc lp L e = Some L' -> is_assign e = false -> sp (stm e) <> ASSIGN.
Proof.
  intros W A. destruct (bare e) eqn:B.
  - destruct (stm_bare _ _ _ _ _ W B) as (t & -> & _ & _ & Q). auto.
  - rewrite (stm_expr _ B). cbn. discriminate.
Qed.

Lemma node_msg_plain rec x a1 a2 n r c : plain x = true ->
  node_msg chr0 rec (MsgOf x a1 a2) n r c = msg_generic chr0 rec (MsgOf x a1 a2) n r c.
Proof.
  unfold plain, keyword, memb, keywords. cbn [existsb]. intros P.
  apply negb_true_iff in P. repeat (apply orb_false_elim in P; destruct P as [? P]).
  unfold node_msg. cbn [s0 MsgOf sp].
  repeat match goal with H : (x =? _) = false |- _ => rewrite H; clear H end. reflexivity.
Qed.
Lemma arg_one k t r c c' r' : arg_asmb (asmb k) (ListOf [t]) r false c = Ok (c', r') -> asmb k 0 t r c = Ok c' /\ r' = r.
Proof.
  cbn [arg_asmb ListOf S1 arg_each]. intros E. dob E. injection E as <- <-. auto.
Qed.
Lemma arg_list k es r c c' r' : arg_asmb (asmb k) (ListOf (stms es)) r true c = Ok (c', r') ->
  arg_each (asmb k) true r (u8 (r + zlen (stms es) + 1)) (stms es) r c = Ok (c', r').
Proof. unfold arg_asmb, ListOf, S1. destruct (stms es); auto. Qed.
Lemma block_inv k es r c c' : 0 <= r <= 255 -> (match BlockOf (stms es) with SSrc b => asmb k 0 b r c | _ => UB end) = Ok c' ->
  exists k', each (asmb k') (stms es) r (PN_REG r c) = Ok c'.
Proof.
  intros R. unfold BlockOf. intros E. destruct (asmb_inv _ _ _ _ _ _ E) as (k' & -> & E'). rewrite u8_id in E' by lia.
  exists k'. destruct (stms es); exact E'.
Qed.
Lemma sc_reg enc L r c : sc enc L c -> sc enc L (PN_REG r c).
Proof. unfold sc. rewrite skel_reg. auto. Qed.

Definition ok_all (es : exps) : Prop := forall k enc lp L L' r c c',
  wf_all upper enc lp L es = Some L' -> sc enc L c -> 0 <= r -> r + need_all es <= 255 ->
  each (asmb k) (stms es) r c = Ok c' -> c' = cexps es r c.
Definition ok_items (es : exps) : Prop := forall k enc lp L L' r c c',
  wf_items upper enc lp L es = Some L' -> sc enc L c -> 0 <= r -> r + need_items es <= 255 ->
  list_items (asmb k) (stms es) r c = Ok c' -> c' = citems es r c.
Definition ok_args (es : exps) : Prop := forall k enc lp L L' freg sreg r c c' r',
  wf_items upper enc lp L es = Some L' -> sc enc L c -> 0 <= r -> r + need_args es <= 255 ->
  arg_each (asmb k) true freg sreg (stms es) r c = Ok (c', r') -> c' = cargs es r c /\ r' = r + elen es.
Definition ok_clauses (q : clauses) : Prop := forall k i enc lp L L' r c c',
  wf_clauses upper enc lp L q = Some L' -> sc enc L c -> 0 <= r -> r + need_clauses q <= 255 ->
  each_i (asmb k) i (embk q) r c = Ok c' -> c' = cclauses q r c.

Ltac one := match goal with E : each_i _ _ [_] _ _ = Ok _ |- _ => apply each_one in E end.
Ltac ainv := match goal with E : CompileModel.asmb _ _ _ _ _ _ = Ok _ |- _ =>
   let k' := fresh "k'" in apply asmb_inv in E; destruct E as (k' & -> & E); rewrite u8_id in E by lia end.


Ltac nn := repeat match goal with
  | a : exp |- _ => lazymatch goal with _ : 0 <= need a |- _ => fail | _ => pose proof (proj1 need_nonneg a) end
  | a : exps |- _ => lazymatch goal with _ : 0 <= need_all a |- _ => fail | _ => destruct (proj1 (proj2 need_nonneg) a) as (? & ? & ? & ?); pose proof (elen_nonneg a) end
  | a : clauses |- _ => lazymatch goal with _ : 0 <= need_clauses a |- _ => fail | _ => pose proof (proj2 (proj2 need_nonneg) a) end
  end.
Ltac stA := let W := fresh "W" in
  intros k enc lp L L' r c c' W S R N D E;
  rewrite wf_eq in W; cbv beta iota in W; wfinv; cbn [emb stms embk need need_all need_items need_args need_clauses head_seq] in *; nn.
Lemma aA_lit v : okA (ELit v).
Proof.
  stA. one. ainv.
  cbn [cexp]. unfold ValOf, S1 in E. destruct (v =? PN_NIL) eqn:V; cbn [node sp s0 s1 is_nil node_value val_of bind] in E.
  + apply Z.eqb_eq in V. subst. congruence.
  + congruence.
Qed.
Lemma aA_var x : okA (EVar x).
Proof.
  stA. one. ainv. cbn [cexp]. cbn [node sp MsgOf] in E.
  change (Src MSG (SVal x) SNil SNil) with (MsgOf x SNil SNil) in E. rewrite node_msg_plain in E by assumption.
  unfold msg_generic in E. cbn [sp s0 s1 s2 MsgOf is_nil negb orb bind Z.eqb andb] in E. change (part_eqb MSG MSG) with true in E.
  destruct (upval_local _ _ _ x (sc_reg _ _ r _ S)) as (U & V); [assumption|]. rewrite U, V in E.
  rewrite lidx_reg in E. congruence.
Qed.
Lemma aA_up x : okA (EUp x).
Proof.
  stA. one. ainv. cbn [cexp]. cbn [node sp MsgOf] in E.
  change (Src MSG (SVal x) SNil SNil) with (MsgOf x SNil SNil) in E. rewrite node_msg_plain in E by assumption.
  unfold msg_generic in E. cbn [sp s0 s1 s2 MsgOf is_nil negb orb bind Z.eqb andb] in E. change (part_eqb MSG MSG) with true in E.
  destruct (useup_sc _ _ _ x (sc_reg _ _ r _ S)) as (_ & U & _); [assumption..|].
  destruct (PN_UPVAL x (PN_REG r c)) as [c1 up] eqn:V. cbn [snd] in U.
  assert (c1 = useup x (PN_REG r c)) by (unfold useup; rewrite V; reflexivity). subst c1 up. cbn [fst snd] in E. congruence.
Qed.
Lemma aA_self : okA ESelf.
Proof. stA. one. ainv. cbn [cexp]. cbn in E. congruence. Qed.
Lemma aA_bin p a b : okA a /\ okB a -> okA b /\ okB b -> okA (EBin p a b).
Proof.
  intros [_ A] [_ B]. stA. one. ainv.
  assert (exists o, binop_of p = Some o) as (o & HO) by (apply src_op_spec; assumption).
  assert (E' : node_bin (asmb k') o (Src p (SSrc (stm a)) (SSrc (stm b)) SNil) r (PN_REG r c) = Ok c').
  { unfold node in E. cbn [sp] in E. revert E HO. match goal with H : src_op p = true |- _ => revert H end.
    clear. destruct p; cbn [src_op binop_of]; try discriminate; intros _ E' [= <-]; exact E'. }
  clear E. unfold node_bin in E'. cbn [s0 s1] in E'. dob E'. dob E'.
  pose proof (proj1 need_nonneg a). pose proof (proj1 need_nonneg b).
  rewrite u8_id in * by lia.
  eapply A in E; try eassumption; [|apply sc_reg; assumption|lia]. subst.
  eapply B in E0; try eassumption; [|eapply (proj1 (cexp_sc _)); [eassumption|apply sc_reg; assumption]|lia|lia]. subst.
  cbn [cexp]. unfold opcode. rewrite HO. congruence.
Qed.
Lemma aA_not a : okA a /\ okB a -> okA (ENot a).
Proof.
  intros [_ A]. stA. one. ainv. cbn [node sp s0] in E. dob E.
  eapply A in E0; try eassumption; [|apply sc_reg; assumption]. subst. cbn [cexp]. congruence.
Qed.
Lemma aA_bitn a : okA a /\ okB a -> okA (EBitn a).
Proof.
  intros [_ A]. stA. one. ainv. cbn [node sp s0] in E. dob E.
  eapply A in E0; try eassumption; [|apply sc_reg; assumption]. subst. cbn [cexp]. congruence.
Qed.
Lemma aA_and a b : okA a /\ okB a -> okA b /\ okB b -> okA (EAnd a b).
Proof.
  intros [_ A] [_ B]. stA. one. ainv. cbn [node sp] in E. unfold node_andor in E. cbn [s0 s1] in E. dob E. dob E.
  pose proof (proj1 need_nonneg a). pose proof (proj1 need_nonneg b).
  eapply A in E0; try eassumption; [|apply sc_reg; assumption|lia]. subst.
  eapply B in E1; try eassumption; [|unfold sc; rewrite skel_asm2; eapply (proj1 (cexp_sc _)); [eassumption|apply sc_reg; assumption]|lia]. subst.
  cbn [cexp]. congruence.
Qed.
Lemma aA_or a b : okA a /\ okB a -> okA b /\ okB b -> okA (EOr a b).
Proof.
  intros [_ A] [_ B]. stA. one. ainv. cbn [node sp] in E. unfold node_andor in E. cbn [s0 s1] in E. dob E. dob E.
  pose proof (proj1 need_nonneg a). pose proof (proj1 need_nonneg b).
  eapply A in E0; try eassumption; [|apply sc_reg; assumption|lia]. subst.
  eapply B in E1; try eassumption; [|unfold sc; rewrite skel_asm2; eapply (proj1 (cexp_sc _)); [eassumption|apply sc_reg; assumption]|lia]. subst.
  cbn [cexp]. congruence.
Qed.
Lemma put_local_eq x c : put_local x c = (decl x c, lidx (decl x c) x).
Proof.
  unfold decl, lidx, put_local. pose proof (vput_find (b_locals (c_f c)) x). destruct (vput _ _) as [vs i]. cbn in *. rewrite H. reflexivity.
Qed.
Lemma aA_set x e : okA e -> okA (ESet x e).
Proof.
  intros A. stA. one. ainv. cbn [node sp] in E. unfold node_assign in E. cbn [s0 s1 S1] in E.
  cbn [rev app each_i bind] in E. cbn [assign_target MsgOf] in E.
  match goal with H : upper x = false |- _ => rewrite H in E end.
  replace (zlen [MsgOf x SNil SNil] - 1 =? 0) with true in E by reflexivity.
  assert (U : PN_UPVAL x (PN_REG r c) = (PN_REG r c, None)).
  { destruct (memb x L) eqn:M.
    - apply (upval_local enc L); [apply sc_reg; assumption|assumption].
    - cbn in *. match goal with H : negb (owned enc x) = true |- _ => apply negb_true_iff in H end. apply (upval_none enc L); [apply sc_reg; assumption|assumption..]. }
  rewrite U, put_local_eq in E. cbn [bind s1 is_nil MsgOf] in E. dob E.
  eapply okA_C in E0; try eassumption; [|apply decl_sc; [apply sc_reg; assumption|assumption]]. subst.
  cbn [cexp assign_store is_query sp] in *. change (is_query (MsgOf x SNil SNil)) with false in E. congruence.
Qed.
Lemma aA_upset x e : okA e -> okA (EUpSet x e).
Proof.
  intros A. stA. one. ainv. cbn [node sp] in E. unfold node_assign in E. cbn [s0 s1 S1] in E.
  cbn [rev app each_i bind] in E. cbn [assign_target MsgOf] in E.
  match goal with H : upper x = false |- _ => rewrite H in E end.
  replace (zlen [MsgOf x SNil SNil] - 1 =? 0) with true in E by reflexivity.
  destruct (useup_sc _ _ _ x (sc_reg _ _ r _ S)) as (HS & U & _); [assumption..|].
  destruct (PN_UPVAL x (PN_REG r c)) as [c1 up] eqn:V. cbn [snd] in U.
  assert (c1 = useup x (PN_REG r c)) by (unfold useup; rewrite V; reflexivity). subst c1 up.
  cbn [bind s1 is_nil MsgOf] in E. dob E.
  eapply okA_C in E0; try eassumption. subst.
  cbn [cexp assign_store is_query sp] in *. change (is_query (MsgOf x SNil SNil)) with false in E. congruence.
Qed.
Lemma aA_glob x e : okA e -> okA (EGlob x e).
Proof.
  intros A. stA. one. ainv. cbn [node sp] in E. unfold node_assign in E. cbn [s0 s1 S1] in E.
  cbn [rev app each_i bind] in E. cbn [assign_target MsgOf] in E.
  match goal with H : upper x = true |- _ => rewrite H in E end.
  pose proof (proj1 need_nonneg e). rewrite !u8_id in E by lia.
  pose proof (skel_loadname r x (PN_REG r c)) as K. unfold loadname in K. cbn [cexp]. unfold loadname.
  destruct (put_value x (PN_REG r c)) as [c1 i].
  cbn [bind s1 is_nil MsgOf] in E. dob E.
  eapply okA_C in E0; try eassumption; [|unfold sc; rewrite K; apply sc_reg; assumption|lia|lia]. subst.
  cbn [assign_store] in E. congruence.
Qed.
Lemma lor1_inc up post : PN_IS_INT (inc_word up post) = post.
Proof. destruct up, post; reflexivity. Qed.
Lemma aA_inc x up post : okA (EInc x up post).
Proof.
  stA. assert (r + 1 <= 255) by (destruct post; lia). one. ainv. cbn [node sp] in E. unfold node_inc in E. cbn [s0 s1 MsgOf] in E.
  destruct (upval_local _ _ _ x (sc_reg _ _ r _ S)) as (U & V); [assumption|]. rewrite U in E. rewrite put_local_eq in E.
  assert (DC : decl x (PN_REG r c) = PN_REG r c).
  { unfold decl, put_local, vput. rewrite V. destruct (PN_REG r c) as [[] ? ? ?]. reflexivity. }
  rewrite DC, lor1_inc in E. cbn [cexp]. destruct post; rewrite ?u8_id in E by lia; congruence.
Qed.
Lemma aA_path n : okA (EPath n).
Proof.
  stA. one. ainv. cbn [node sp] in E. unfold node_path in E. cbn [s0] in E. cbn [cexp]. destruct (put_value n _) as [c1 i].
  change (0 =? 0) with true in E. change (part_eqb PATH PATHQ) with false in E. cbn [sp] in E.
  change (part_eqb PATH PATHQ) with false in E. congruence.
Qed.
Lemma zlen_emb e : 0 + zlen (emb e) =? 0 = false.
Proof. destruct (emb_nonempty e) as (t & l & ->). rewrite zlen_cons. pose proof (zlen_nonneg l). lia. Qed.
Lemma aA_pathof e n : okA e -> okA (EPathOf e n).
Proof.
  intros A. stA. rewrite each_i_app in E. dob E. one. ainv. cbn [node sp] in E. unfold node_path in E. cbn [s0] in E.
  eapply A in E0; try eassumption; [|lia]. subst. cbn [cexp]. rewrite zlen_emb in E. destruct (put_value n _) as [c1 i].
  change (part_eqb PATH PATHQ) with false in E. cbn [sp] in E.
  change (part_eqb PATH PATHQ) with false in E. congruence.
Qed.
Lemma aA_pathset n e : okA e -> okA (EPathSet n e).
Proof.
  intros A. stA. one. ainv. cbn [node sp] in E. unfold node_assign in E. cbn [s0 s1 S1] in E.
  cbn [rev app each_i bind] in E. cbn [assign_target] in E.
  pose proof (proj1 need_nonneg e). rewrite !u8_id in E by lia. replace (r + 1 + 1) with (r + 2) in E by lia.
  cbn [cexp]. pose proof (skel_value n (PN_REG r c)) as K. cbv zeta. destruct (put_value n (PN_REG r c)) as [c1 i]. cbn [fst] in K.
  match type of E with context [zlen ?l - 1 =? 0] => replace (zlen l - 1 =? 0) with true in E by reflexivity end.
  cbn [bind s1 is_nil MsgOf] in E. dob E.
  eapply okA_C in E0; try eassumption; [|unfold sc; rewrite skel_asm2, skel_asm1, skel_path, K; apply sc_reg; assumption|lia|lia]. subst.
  cbn [assign_store is_pathq] in E. unfold is_pathq in E. cbn [sp] in E. change (part_eqb PATH PATHQ) with false in E. congruence.
Qed.
Lemma aA_list es : ok_items es -> okA (EList es).
Proof.
  intros A. stA. one. ainv. unfold S1 in E. cbn [node sp s0] in E. cbn [cexp].
  assert (E' : list_items (asmb k') (stms es) r (asm1 O_NEWTUPLE r (PN_REG r c)) = Ok c') by (destruct es; exact E).
  eapply A in E'; try eassumption. unfold sc. rewrite skel_asm1. apply sc_reg; assumption.
Qed.

Lemma sc_pv enc L x c c1 i : put_value x c = (c1, i) -> sc enc L c -> sc enc L c1.
Proof. intros E. pose proof (skel_value x c) as K. rewrite E in K. cbn in K. unfold sc. rewrite K. auto. Qed.
Ltac scq := first [assumption
  | apply sc_reg; scq
  | unfold sc; rewrite skel_asm2; scq
  | unfold sc; rewrite skel_asm1; scq
  | unfold sc; rewrite skel_path; scq
  | eapply sc_pv; [eassumption|]; scq
  | eapply (proj1 (cexp_sc _)); [eassumption|]; scq].
Definition msg_args := @eq_refl.
(* a message with an argument list, the receiver in [reg] or self *)
Lemma generic_send k n m es r c c' : 0 <= r -> r + 1 <= 255 ->
  (n =? 0) = false \/ ((n =? 0) = true /\ PN_UPVAL m c = (c, None) /\ vfind (b_locals (c_f c)) m = None) ->
  msg_generic chr0 (asmb k) (MsgOf m (ListOf (stms es)) SNil) n r c = Ok c' ->
  exists c1 r1, arg_each (asmb k) true (r + 1) (u8 (r + 1 + zlen (stms es) + 1)) (stms es) (r + 1)
    (let (c1, i) := put_value m c in
     asm2 O_MSG r (r + 1) (asm2 O_LOADK r i (if n =? 0 then asm1 O_SELF (r + 1) c1 else asm2 O_MOVE (r + 1) r c1))) = Ok (c1, r1)
    /\ c' = PN_REG r1 (asm2 O_CALL r r1 c1).
Proof.
  intros R R1 Hn E. unfold msg_generic in E. cbn [sp s0 s1 s2 MsgOf is_nil ListOf negb orb bind andb] in E.
  change (part_eqb MSG MSG) with true in E. change (part_eqb MSG QUERY) with false in E. rewrite andb_true_r in E.
  assert (Q : (if n =? 0 then let (c, up) := PN_UPVAL m c in match up with Some i => (c, Some i, O_GETUPVAL) | None => (c, vfind (b_locals (c_f c)) m, O_GETLOCAL) end else (c, None, O_GETUPVAL))
     = (c, None, if n =? 0 then O_GETLOCAL else O_GETUPVAL)).
  { destruct Hn as [->|(-> & -> & ->)]; reflexivity. }
  rewrite Q in E. rewrite u8_id in E by lia. destruct (put_value m c) as [c1 i].
  change (is_part LIST (SSrc (S1 LIST match stms es with [] => SNil | _ :: _ => STup (stms es) end))) with true in E.
  rewrite orb_true_r in E. cbn [bind] in E. dob E. destruct x as [c2 r2].
  apply arg_list in E0. cbn [bind] in E. change (is_part BLOCK SNil) with false in E. cbn [bind] in E.
  exists c2, r2. split; [exact E0|congruence].
Qed.
Lemma generic_send0 k n m r c c' : 0 <= r -> r + 2 <= 255 ->
  (n =? 0) = false \/ ((n =? 0) = true /\ PN_UPVAL m c = (c, None) /\ vfind (b_locals (c_f c)) m = None) ->
  msg_generic chr0 (asmb k) (MsgOf m SNil SNil) n r c = Ok c' ->
  c' = let (c1, i) := put_value m c in
       PN_REG (r + 2) (asm2 O_CALL r (r + 2) (asm2 O_LOADPN (r + 2) PN_NIL
        (asm2 O_BIND r (r + 1) (asm2 O_LOADK r i (if n =? 0 then asm1 O_SELF (r + 1) c1 else asm2 O_MOVE (r + 1) r c1))))).
Proof.
  intros R R1 Hn E. unfold msg_generic in E. cbn [sp s0 s1 s2 MsgOf is_nil negb orb bind andb] in E.
  change (part_eqb MSG MSG) with true in E. change (part_eqb MSG QUERY) with false in E. rewrite andb_true_r in E.
  assert (Q : (if n =? 0 then let (c, up) := PN_UPVAL m c in match up with Some i => (c, Some i, O_GETUPVAL) | None => (c, vfind (b_locals (c_f c)) m, O_GETLOCAL) end else (c, None, O_GETUPVAL))
     = (c, None, if n =? 0 then O_GETLOCAL else O_GETUPVAL)).
  { destruct Hn as [->|(-> & -> & ->)]; reflexivity. }
  rewrite Q in E. rewrite u8_id in E by lia. destruct (put_value m c) as [c1 i].
  cbn [bind arg_asmb] in E. change (is_part BLOCK SNil) with false in E. cbn [bind andb] in E. rewrite u8_id in E by lia.
  replace (r + 1 + 1) with (r + 2) in E by lia. congruence.
Qed.
(* a call of the value already named: variable, upvalue or register *)
Lemma generic_call k t n o i es r c c1 c' : 0 <= r -> r + 1 <= 255 ->
  sp t = MSG -> s1 t = ListOf (stms es) -> s2 t = SNil ->
  (s0 t = SNil /\ i = None /\ c1 = c /\ (n =? 0) = false
   \/ exists x, s0 t = SVal x /\ n = 0 /\
      (exists u, PN_UPVAL x c = (c1, Some u) /\ i = Some u /\ o = O_GETUPVAL
       \/ PN_UPVAL x c = (c1, None) /\ vfind (b_locals (c_f c1)) x = Some u /\ i = Some u /\ o = O_GETLOCAL)) ->
  msg_generic chr0 (asmb k) t n r c = Ok c' ->
  exists c2 r2, arg_each (asmb k) true (r + 1) (u8 (r + 1 + zlen (stms es) + 1)) (stms es) (r + 1)
    (asm1 O_SELF (r + 1) (match i with Some i => asm2 o r i c1 | None => c1 end)) = Ok (c2, r2)
    /\ c' = PN_REG r2 (asm2 O_CALL r r2 c2).
Proof.
  intros R R1 T1 T2 T3 Q E. unfold msg_generic in E. rewrite T1, T2, T3 in E.
  cbn [is_nil ListOf negb orb bind andb] in E. change (part_eqb MSG MSG) with true in E.
  destruct Q as [(Q0 & -> & -> & Qn)|(x & Q0 & -> & Q)]; rewrite Q0 in E; cbn [bind] in E.
  - rewrite Qn in E. cbn [andb] in E. rewrite u8_id in E by lia. dob E. destruct x as [c2 r2].
    apply arg_list in E0. cbn [bind] in E. exists c2, r2. split; [exact E0|congruence].
  - cbn [Z.eqb andb] in E. destruct Q as (u & [(Q & -> & ->)|(Q & V & -> & ->)]); rewrite Q in E; try rewrite V in E;
    rewrite u8_id in E by lia; dob E; destruct x0 as [c2 r2]; apply arg_list in E0; cbn [bind] in E;
    exists c2, r2; (split; [exact E0|congruence]).
Qed.
Lemma kw_nil rec a1 a2 n r c : node_msg chr0 rec (Src MSG SNil a1 a2) n r c = msg_generic chr0 rec (Src MSG SNil a1 a2) n r c.
Proof. reflexivity. Qed.

Lemma aA_send e m es : okA e -> ok_args es -> okA (ESend e m es).
Proof.
  intros A B. stA. rewrite each_i_app in E. dob E. one. ainv. cbn [node sp MsgOf] in E.
  eapply A in E0; try eassumption; [|lia]. subst.
  change (Src MSG ?a ?b ?c) with (MsgOf m (ListOf (stms es)) SNil) in E. rewrite node_msg_plain in E by assumption.
  apply generic_send in E; [|lia|lia|left; apply zlen_emb]. destruct E as (c1 & r1 & E & ->).
  cbn [cexp]. destruct (put_value m _) as [c2 i] eqn:PV. rewrite zlen_emb in E.
  eapply B in E; try eassumption; [|scq|lia|lia]. destruct E as [-> ->]. reflexivity.
Qed.
Lemma aA_send0 e m : okA e -> okA (ESend0 e m).
Proof.
  intros A. stA. rewrite each_i_app in E. dob E. one. ainv. cbn [node sp MsgOf] in E.
  eapply A in E0; try eassumption; [|lia]. subst.
  change (Src MSG ?a ?b ?c) with (MsgOf m SNil SNil) in E. rewrite node_msg_plain in E by assumption.
  apply generic_send0 in E; [|lia|lia|left; apply zlen_emb]. cbn [cexp]. destruct (put_value m _) as [c2 i] eqn:PV. rewrite zlen_emb in E.
  exact E.
Qed.
Lemma aA_selfsend m es : ok_args es -> okA (ESelfSend m es).
Proof.
  intros B. stA. one. ainv. cbn [node sp MsgOf] in E.
  change (Src MSG ?a ?b ?c) with (MsgOf m (ListOf (stms es)) SNil) in E. rewrite node_msg_plain in E by assumption.
  apply generic_send in E; [|lia|lia|right; split; [reflexivity|apply (upval_none enc L); [scq|assumption..]]]. destruct E as (c1 & r1 & E & ->).
  cbn [cexp]. cbv zeta. destruct (put_value m _) as [c2 i] eqn:PV. change (0 =? 0) with true in E.
  eapply B in E; try eassumption; [|scq|lia|lia]. destruct E as [-> ->]. reflexivity.
Qed.
Lemma aA_selfsend0 m : okA (ESelfSend0 m).
Proof.
  stA. one. ainv. cbn [node sp MsgOf] in E.
  change (Src MSG ?a ?b ?c) with (MsgOf m SNil SNil) in E. rewrite node_msg_plain in E by assumption.
  apply generic_send0 in E; [|lia|lia|right; split; [reflexivity|apply (upval_none enc L); [scq|assumption..]]].
  cbn [cexp]. cbv zeta. destruct (put_value m _) as [c2 i] eqn:PV. exact E.
Qed.
Lemma aA_callvar x es : ok_args es -> okA (ECallVar x es).
Proof.
  intros B. stA. one. ainv. cbn [node sp MsgOf] in E.
  change (Src MSG ?a ?b ?c) with (MsgOf x (ListOf (stms es)) SNil) in E. rewrite node_msg_plain in E by assumption.
  destruct (upval_local _ _ _ x (sc_reg _ _ r _ S)) as (U & V); [assumption|].
  eapply generic_call with (n := 0) (es := es) in E; [|lia|lia|reflexivity|reflexivity|reflexivity|].
  2: { right. exists x. split; [reflexivity|]. split; [reflexivity|]. eexists. right. repeat split; eassumption || reflexivity. }
  destruct E as (c2 & r2 & E & ->). cbn [cexp]. cbv zeta.
  eapply B in E; try eassumption; [|scq|lia|lia]. destruct E as [-> ->]. reflexivity.
Qed.
Lemma aA_callup x es : ok_args es -> okA (ECallUp x es).
Proof.
  intros B. stA. one. ainv. cbn [node sp MsgOf] in E.
  change (Src MSG ?a ?b ?c) with (MsgOf x (ListOf (stms es)) SNil) in E. rewrite node_msg_plain in E by assumption.
  destruct (useup_sc _ _ _ x (sc_reg _ _ r _ S)) as (HS & U & _); [assumption..|].
  destruct (PN_UPVAL x (PN_REG r c)) as [c1 up] eqn:V. cbn [snd] in U.
  assert (c1 = useup x (PN_REG r c)) by (unfold useup; rewrite V; reflexivity). subst c1 up.
  eapply generic_call with (n := 0) (es := es) in E; [|lia|lia|reflexivity|reflexivity|reflexivity|].
  2: { right. exists x. split; [reflexivity|]. split; [reflexivity|]. eexists. left. repeat split; eassumption || reflexivity. }
  destruct E as (c2 & r2 & E & ->). cbn [cexp]. cbv zeta.
  eapply B in E; try eassumption; try scq; try lia. destruct E as [-> ->]. reflexivity.
Qed.
Lemma aA_callval e es : okA e -> ok_args es -> okA (ECallVal e es).
Proof.
  intros A B. stA. rewrite each_i_app in E. dob E. one. ainv. cbn [node sp] in E.
  eapply A in E0; try eassumption; [|lia]. subst. rewrite kw_nil in E.
  eapply generic_call with (i := None) (o := O_NONE) (es := es) in E; [|lia|lia|reflexivity|reflexivity|reflexivity|].
  2: { left. repeat split. apply zlen_emb. }
  destruct E as (c2 & r2 & E & ->). cbn [cexp]. cbv zeta.
  eapply B in E; try eassumption; [|scq|lia|lia]. destruct E as [-> ->]. reflexivity.
Qed.

Ltac scq2 := first [assumption
  | apply sc_reg; scq2
  | unfold sc; rewrite skel_asm2; scq2
  | unfold sc; rewrite skel_asm1; scq2
  | unfold sc; rewrite skel_patch_b; scq2
  | unfold sc; rewrite skel_path; scq2
  | unfold sc; rewrite skel_loop; scq2
  | eapply sc_pv; [eassumption|]; scq2
  | eapply (proj1 (cexp_sc _)); [eassumption|]; scq2
  | eapply (proj1 (proj1 (proj2 (cexp_sc _)) _)); [eassumption|]; scq2 ].
Lemma oplen_asm2 o a b c : oplen (asm2 o a b c) = oplen c + 1.
Proof. unfold oplen, asm2, onf. cbn. rewrite zlen_app. reflexivity. Qed.
Lemma aA_if e b q : okA e -> ok_all b -> ok_clauses q -> okA (EIf e b q).
Proof.
  intros A B C. stA. cbn [each_i] in E. dob E. ainv.
  change (msg_if (asmb k') (MsgOf PN_if (ListOf [stm e]) (BlockOf (stms b))) r (PN_REG r c) = Ok x1) in E0.
  unfold msg_if in E0. cbn [s1 s2 MsgOf is_nil ListOf] in E0. rewrite u8_id in E0 by lia.
  change (SSrc (S1 LIST (STup [stm e]))) with (ListOf [stm e]) in E0. dob E0. destruct x2 as [c2 r2].
  apply arg_one in E1. destruct E1 as [E1 ->].
  eapply okA_C in E1; try eassumption; try scq2; try lia. subst c2.
  unfold BlockOf in E0 at 1. dob E0. destruct (block_inv _ _ _ _ _ (ltac:(lia) : 0 <= r <= 255) E1) as (k2 & E2).
  eapply B in E2; try eassumption; try scq2; try lia. subst x2. injection E0 as <-.
  eapply C in E; try eassumption; try scq2; try lia.
Qed.
Lemma aA_while e b : okA e -> ok_all b -> okA (EWhile e b).
Proof.
  intros A B. stA. one. ainv.
  change (msg_while (asmb k') true (MsgOf PN_while (ListOf [stm e]) (BlockOf (stms b))) r (PN_REG r c) = Ok c') in E.
  unfold msg_while in E. cbn [s1 s2 MsgOf] in E. rewrite u8_id in E by lia.
  dob E. dob E0. destruct x1 as [c2 r2].
  apply arg_one in E1. destruct E1 as [E1 ->].
  eapply okA_C in E1; try eassumption; try scq2; try lia. subst c2. injection E0 as <-.
  unfold BlockOf in E at 1. dob E. destruct (block_inv _ _ _ _ _ (ltac:(lia) : 0 <= r <= 255) E0) as (k2 & E2).
  eapply B in E2; try eassumption; try scq2; try lia. subst x0.
  cbn [cexp]. cbv zeta. unfold endloop, loops. destruct (c_loop (cexps b r _)) as [[bs cs]|] eqn:CL; [|discriminate].
  injection E as <-. reflexivity.
Qed.
Lemma aA_loop b : ok_all b -> okA (ELoop b).
Proof.
  intros B. stA. one. ainv.
  change (msg_while (asmb k') false (MsgOf PN_loop SNil (BlockOf (stms b))) r (PN_REG r c) = Ok c') in E.
  unfold msg_while in E. cbn [s1 s2 MsgOf bind] in E. rewrite u8_id in E by lia.
  unfold BlockOf in E at 1. dob E. destruct (block_inv _ _ _ _ _ (ltac:(lia) : 0 <= r <= 255) E0) as (k2 & E2).
  eapply B in E2; try eassumption; try scq2; try lia. subst x.
  cbn [cexp]. cbv zeta. unfold endloop, loops. destruct (c_loop (cexps b r _)) as [[bs cs]|] eqn:CL; [|discriminate].
  injection E as <-. reflexivity.
Qed.
Lemma c_loop_reg r c : c_loop (PN_REG r c) = c_loop c. Proof. reflexivity. Qed.
Lemma aA_break : okA EBreak.
Proof.
  stA. one. ainv.
  change (msg_break r (PN_REG r c) = Ok c') in E. unfold msg_break in E. cbn [cexp]. unfold loops.
  destruct (c_loop (PN_REG r c)) as [[bs cs]|]; [|discriminate]. destruct (_ <? _); [|discriminate]. injection E as <-. reflexivity.
Qed.
Lemma aA_cont : okA ECont.
Proof.
  stA. one. ainv.
  change (msg_continue r (PN_REG r c) = Ok c') in E. unfold msg_continue in E. cbn [cexp]. unfold loops.
  destruct (c_loop (PN_REG r c)) as [[bs cs]|]; [|discriminate]. destruct (_ <? _); [|discriminate]. injection E as <-. reflexivity.
Qed.
Lemma aA_return e : okA e -> okA (EReturn e).
Proof.
  intros A. stA. one. ainv.
  change (msg_return (asmb k') (MsgOf PN_return (ListOf [stm e]) SNil) r (PN_REG r c) = Ok c') in E.
  unfold msg_return in E. cbn [s1 MsgOf] in E. dob E. destruct x as [c2 r2].
  apply arg_one in E0. destruct E0 as [E0 ->].
  eapply okA_C in E0; try eassumption; try scq2. subst c2. cbn [cexp]. congruence.
Qed.
Lemma nodup_app_one p ps : nodup (p :: ps) = true -> memb p ps = false /\ nodup ps = true.
Proof. cbn. intros H. apply andb_prop in H. destruct H as [H1 H2]. apply negb_true_iff in H1. auto. Qed.
Definition param (p : Z) : src := S1 EXPR (STup [MsgOf p SNil SNil]).
Lemma sig_items_params : forall ps sig loc, nodup (loc ++ ps) = true ->
  sig_items chr0 (map param ps) sig loc = Ok (sig ++ ps, loc ++ ps).
Proof.
  induction ps as [|p ps IH]; intros sig loc ND; cbn [map sig_items]; [rewrite !app_nil_r; reflexivity|].
  unfold param at 1, S1 at 1. cbn [bind sig_name fst snd fold_left MsgOf].
  assert (V : fst (vput loc p) = loc ++ [p]).
  { rewrite vput_fst. unfold add. replace (memb p loc) with false; [reflexivity|].
    symmetry. clear IH. induction loc as [|x loc IHl]; [reflexivity|]. cbn [app] in ND. apply nodup_app_one in ND. destruct ND as [M ND].
    unfold memb. cbn [existsb]. fold (memb p loc). rewrite IHl by assumption. rewrite memb_app in M. apply orb_false_elim in M. destruct M as [_ M].
    unfold memb in M. cbn [existsb] in M. apply orb_false_elim in M. destruct M as [M _]. rewrite Z.eqb_sym, M. reflexivity. }
  cbn [param S1 MsgOf bind fst snd fold_left]. rewrite V. rewrite IH by (rewrite <- app_assoc; exact ND). rewrite <- !app_assoc. reflexivity.
Qed.
Lemma sig_params ps : nodup ps = true ->
  sig_compile chr0 (match ps with [] => SNil | _ => SSrc (S1 LIST (STup (map param ps))) end) = Ok (ps, ps).
Proof.
  intros ND. destruct ps as [|p ps]; [reflexivity|]. unfold sig_compile, S1.
  rewrite (sig_items_params (p :: ps) [] []) by exact ND. reflexivity.
Qed.
Lemma aA_fun l ps b : ok_all b -> okA (EFun l ps b).
Proof.
  intros B. stA. one. ainv.
  change (PN_BLOCK chr0 (asmb k') r (BlockOf (stms b)) (match ps with [] => SNil | _ => SSrc (S1 LIST (STup (map param ps))) end) (PN_REG r c) = Ok c') in E.
  unfold PN_BLOCK in E. unfold BlockOf, S1 at 1 in E. change (part_eqb BLOCK CODE || part_eqb BLOCK BLOCK) with true in E. cbv iota in E.
  rewrite sig_params in E by assumption. cbn [bind fst snd] in E. dob E.
  destruct (block_inv k' b 0 _ _ (ltac:(lia) : 0 <= 0 <= 255) E0) as (k2 & E2).
  assert (SC : sc (L :: enc) ps (mkC (pb0 ps ps) (c_f (PN_REG r c) :: c_up (PN_REG r c)) (c_tbl (PN_REG r c)) None)).
  { pose proof (sc_reg _ _ r _ S) as (K1 & K2 & K3 & K4). cbn [skel fst snd] in K1, K2, K3, K4.
    split; [reflexivity|]. cbn [skel fst snd c_up map c_f pb0 b_upvals chain_ok]. split; [congruence|]. split; [intros y Y; discriminate|].
    split; [|exact K4]. rewrite K1, K2. exact K3. }
  eapply B in E2; try eassumption; try (apply sc_reg; exact SC); try lia. subst x0. cbn [cexp]. cbv zeta. unfold endfun.
  destruct (c_up (cexps b 0 _)) as [|f up]; [discriminate|]. destruct (vput (b_protos f) _) as [qs num]. cbn [fst snd].
  injection E as <-. reflexivity.
Qed.

(** the parts of a lick are bare trees *)
Fixpoint ok_each (es : exps) : Prop := match es with Nil => True | Cons e es => okA e /\ ok_each es end.
Lemma lick_tree e : lick_value e = true -> exists t, emb e = [t].
Proof. destruct e; try discriminate; intros _; eexists; reflexivity. Qed.
Lemma list_value e : is_list e = true -> lick_value e = true /\ exists t, emb e = [t].
Proof. destruct e; try discriminate; intros _. split; [reflexivity|eexists; reflexivity]. Qed.
Lemma part_inv k e enc lp L L' r c c' t : okA e -> wf upper enc lp L e = Some L' -> sc enc L c -> 0 <= r -> r + need e <= 255 ->
  head_seq e = false -> emb e = [t] -> asmb k 0 t r c = Ok c' -> c' = cexp e r c.
Proof.
  intros A W S R N D T E. eapply A; try eassumption. instantiate (1 := k). rewrite T. cbn [each_i bind]. rewrite E. reflexivity.
Qed.
Lemma reg_over r c : PN_REG (r + 1) (PN_REG r c) = PN_REG (r + 1) c.
Proof.
  destruct c as [f up t lo]. unfold PN_REG, onf. cbn. f_equal.
  destruct (b_stack f <=? r) eqn:E; [|reflexivity]. cbn [b_stack set_stack].
  replace (r + 1 <=? r + 1) with true by lia. replace (b_stack f <=? r + 1) with true by lia. reflexivity.
Qed.
Lemma reg_asm2 r o a b c : PN_REG r (asm2 o a b c) = asm2 o a b (PN_REG r c).
Proof. destruct c as [f up t lo]. unfold PN_REG, asm2, onf. cbn. destruct (b_stack f <=? r); reflexivity. Qed.
Lemma aA_lick n es : ok_each es -> okA (ELick n es).
Proof.
  intros A. stA. one. ainv. cbn [node sp] in E.
  assert (E' : node_lick (asmb k') (match emb (ELick n es) with t :: _ => t | [] => S1 CODE SNil end) r (PN_REG r c) = Ok c').
  { cbn [emb]. destruct es as [|a [|b es]]; exact E. }
  clear E. pose proof (skel_loadname r n (PN_REG r c)) as K. unfold loadname in K. cbn [cexp]. unfold loadname.
  unfold node_lick in E'.
  destruct es as [|a es]; [|destruct es as [|b es]; [|destruct es; [|discriminate]]]; cbn [emb s0 s1 s2] in E';
    destruct (put_value n (PN_REG r c)) as [c1 kk] eqn:P; cbn [is_nil bind elen cargs need_args lick_parts ok_each] in *; wfinv.
  - injection E' as <-. rewrite Z.add_0_r. reflexivity.
  - destruct A as [A _]. destruct (lick_tree a) as (t & T); [assumption|]. rewrite T in E'. cbn [one] in E'.
    dob E'. destruct x as [c2 b2]. dob E. injection E as <- <-. cbn [bind] in E'. injection E' as <-.
    rewrite wf_items_eq in W. wfinv. nn. rewrite u8_id in * by lia. rewrite Z.add_0_r.
    eapply part_inv in E0; try eassumption; try lia. subst. reflexivity.
    unfold sc. rewrite K. apply sc_reg. assumption.
  - destruct A as [A [B _]].
    match goal with Q : is_list b = true |- _ => destruct (list_value b Q) as (VB & t' & T') end. rewrite T' in E'.
    destruct (lick_tree a) as (t & T); [assumption|]. rewrite T in E'. cbn [one] in E'.
    rewrite wf_items_eq in W. wfinv. rewrite wf_items_eq in W. wfinv. nn.
    assert (E2 : exists c2, cexp b (r + 2) c2 = cexp b (r + 2) (cexp a (r + 1) (asm2 O_LOADK r kk c1)) /\ sc enc x c2 /\
       (do cb <- (do c <- asmb k' 0 t' (u8 (u8 (r + 1) + 1)) c2; Ok (c, u8 (u8 (r + 1) + 1)));
        let (c, breg) := (cb : cst * Z) in Ok (PN_REG breg (asm2 O_NEWLICK r breg c))) = Ok c').
    { destruct (no_inner a) eqn:NI.
      - destruct a; try discriminate. cbn [no_inner] in NI. apply Z.eqb_eq in NI. subst v. cbn [is_nil bind] in E'. eexists. split; [|split; [|exact E']]; rewrite u8_id by lia.
        + destruct b; try discriminate. cbn [cexp]. unfold load_value. change (negb (PN_IS_PTR PN_NIL) && (PN_NIL =? u64 (sx12 PN_NIL))) with true. cbv iota.
          do 2 f_equal. rewrite (reg_asm2 (r + 2)), (reg_asm2 (r + 2)), (reg_asm2 (r + 2)). replace (r + 2) with (r + 1 + 1) by lia. rewrite reg_over, !reg_asm2. reflexivity.
        + match goal with Q : wf _ _ _ _ (ELit _) = Some _ |- _ => cbn in Q; injection Q as <- end. unfold sc. rewrite skel_asm2, K. apply sc_reg. assumption.
      - dob E'. dob E. injection E as <-. rewrite u8_id in E0 by lia.
        assert (SK : sc enc L (asm2 O_LOADK r kk c1)) by (unfold sc; rewrite K; apply sc_reg; assumption).
        eapply (part_inv _ a _ _ _ _ _ _ _ _ A) in E0; try eassumption; try lia.
        subst. eexists. split; [reflexivity|]. split; [|exact E']. eapply (proj1 (cexp_sc _)); eassumption. }
    destruct E2 as (c2 & CE & S2 & E2). clear E'. dob E2. dob E. injection E as <-. injection E2 as <-.
    rewrite (u8_id (r + 1)) in * by lia. rewrite (u8_id (r + 1 + 1)) in * by lia. replace (r + 1 + 1) with (r + 2) in * by lia.
    eapply (part_inv _ b _ _ _ _ _ _ _ _ B) in E0; try eassumption; try lia.
    subst. rewrite CE. replace (r + 1 + 1) with (r + 2) by lia. replace (r + (1 + (1 + 0))) with (r + 2) by lia. reflexivity.
Qed.

Lemma decl_in enc L c x : sc enc L c -> memb x L = true -> decl x c = c.
Proof.
  intros S M. destruct (upval_local _ _ _ x S M) as (_ & V). unfold decl, put_local, vput. rewrite V. destruct c as [[] ? ? ?]. reflexivity.
Qed.
Lemma aA_at up x ky : okA (EAt up x ky).
Proof.
  stA. assert (r <= 255) by (destruct ky; lia). one. ainv. cbn [node sp S1] in E. unfold node_value in E. cbn [s0 s1 S1] in E. cbn [cexp].
  assert (Q : exists c1, (let (c, num) := PN_UPVAL x (PN_REG r c) in
                          match num with
                          | Some n => asm2 O_GETUPVAL r n c
                          | None => let (c, n) := put_local x c in asm2 O_GETLOCAL r n c
                          end) = c1
               /\ (if up then asm2 O_GETUPVAL r (uidx (useup x (PN_REG r c)) x) (useup x (PN_REG r c))
                   else asm2 O_GETLOCAL r (lidx c x) (PN_REG r c)) = c1 /\ sc enc L c1).
  { destruct up; wfinv.
    - destruct (useup_sc _ _ _ x (sc_reg _ _ r _ S)) as (S1 & U & _); [assumption..|].
      destruct (PN_UPVAL x (PN_REG r c)) as [c1 up] eqn:V. cbn [snd] in U.
      assert (c1 = useup x (PN_REG r c)) by (unfold useup; rewrite V; reflexivity). subst c1 up.
      eexists. split; [reflexivity|]. split; [reflexivity|]. unfold sc. rewrite skel_asm2. exact S1.
    - destruct (upval_local _ _ _ x (sc_reg _ _ r _ S)) as (U & V); [assumption|]. rewrite U, put_local_eq.
      rewrite (decl_in enc L) by (try apply sc_reg; assumption). rewrite lidx_reg.
      eexists. split; [reflexivity|]. split; [reflexivity|]. unfold sc. rewrite skel_asm2. apply sc_reg. assumption. }
  destruct Q as (c1 & Q1 & Q2 & Q3). rewrite Q2. clear Q2.
  assert (E' : (let c := let (c, num) := PN_UPVAL x (PN_REG r c) in
                          match num with
                          | Some n => asm2 O_GETUPVAL r n c
                          | None => let (c, n) := put_local x c in asm2 O_GETLOCAL r n c
                          end in
          match (match key_item ky with Src _ key _ _ => key end) with
          | SVal k =>
              let (c, n) := put_local k c in
              let c := asm2 O_GETLOCAL (r + 1) n c in
              Ok (PN_REG (r + 1) (asm2 O_GETTUPLE r (Z.lor (r + 1) ASM_TPL_IMM) c))
          | SSrc (Src VALUE k _ _) =>
              do k <- val_of k;
              if PN_IS_INT k then
                if (ASM_TPL_IMM <=? PN_INT k) || (PN_INT k <? 0) then
                  let (c, n) := put_value k c in
                  Ok (asm2 O_GETTUPLE r (r + 1) (PN_REG (r + 1) (asm2 O_LOADK (r + 1) n c)))
                else Ok (asm2 O_GETTUPLE r (PN_INT k) c)
              else
                let (c, n) := put_value k c in
                Ok (PN_REG (r + 1) (asm2 O_GETTABLE r (r + 1) (asm2 O_LOADK (r + 1) n c)))
          | _ => UB
          end) = Ok c').
  { destruct (PN_UPVAL x (PN_REG r c)). destruct ky; exact E. }
  clear E. cbv zeta in E'. rewrite Q1 in E'. destruct ky as [i|y|v]; cbn [key_item key_ok] in *.
  - unfold ValOf, S1 in E'. wfinv.
    assert (I1 : PN_IS_INT (PN_NUM i) = true) by (apply PN_NUM_is_int).
    assert (I2 : PN_INT (PN_NUM i) = i) by (apply PN_INT_NUM, repb_spec; unfold two62; lia).
    assert (I3 : (PN_NUM i =? PN_NIL) = false).
    { destruct (PN_NUM i =? PN_NIL) eqn:Q; [|reflexivity]. apply Z.eqb_eq in Q. rewrite Q in I1. discriminate I1. }
    rewrite I3 in E'. cbn [val_of bind] in E'. rewrite I1, I2 in E'. unfold ASM_TPL_IMM in E'.
    replace ((1024 <=? i) || (i <? 0)) with false in E' by lia. congruence.
  - rewrite put_local_eq, (decl_in enc L) in E' by assumption. congruence.
  - unfold ValOf, S1 in E'. wfinv.
    assert (V : val_of (if v =? PN_NIL then SNil else SVal v) = Ok v).
    { destruct (v =? PN_NIL) eqn:Q; [|reflexivity]. apply Z.eqb_eq in Q. subst. reflexivity. }
    rewrite V in E'. cbn [bind] in E'. match goal with Q : PN_IS_INT v = false |- _ => rewrite Q in E' end.
    destruct (put_value v c1). congruence.
Qed.
Lemma aB_seq es : ok_all es -> okB (ESeq es).
Proof.
  intros B k enc lp L L' r c c' W S R N D E. rewrite wf_eq in W. cbv beta iota in W. wfinv. cbn [need] in N.
  destruct es as [|e es]; [discriminate|]. unfold stm, wrap in E. cbn [emb bare] in E. unfold S1, PN_ARG in E. cbn [tup bind] in E.
  cbn [cexp]. eapply B in E; eassumption.
Qed.
Lemma ok_all_cons e es : okA e -> ok_all es -> ok_all (Cons e es).
Proof.
  intros A B k enc lp L L' r c c' W S R N E. rewrite wf_all_eq in W. cbv beta iota in W. wfinv. cbn [need_all stms each] in *. dob E. nn.
  eapply okA_C in E0; try eassumption; try lia. subst. eapply B in E; try eassumption; try lia. scq2.
Qed.
Lemma ok_items_cons e es : okA e -> ok_items es -> ok_items (Cons e es).
Proof.
  intros A B k enc lp L L' r c c' W S R N E. rewrite wf_items_eq in W. cbv beta iota in W. wfinv. cbn [need_items stms list_items] in *. nn.
  fold (stm e) in E. pose proof (stm_item _ _ _ _ _ H0 H1) as NA.
  assert (E' : (do c <- (do c <- asmb k 0 (stm e) (u8 (r + 1)) c; Ok (PN_REG (r + 1) (asm2 O_SETTUPLE r (r + 1) c))); list_items (asmb k) (stms es) r c) = Ok c').
  { destruct (stm e) as [p a0 a1 a2]. cbn in NA. destruct p; try exact E. congruence. }
  clear E. rewrite u8_id in E' by lia. dob E'. dob E. injection E as <-.
  eapply okA_C in E0; try eassumption; try lia. subst. eapply B in E'; try eassumption; try lia. scq2.
Qed.
Lemma ok_args_cons e es : okA e -> ok_args es -> ok_args (Cons e es).
Proof.
  intros A B k enc lp L L' freg sreg r c c' r' W S R N E. rewrite wf_items_eq in W. cbv beta iota in W. wfinv. cbn [need_args stms elen cargs] in *. nn.
  fold (stm e) in E. pose proof (stm_item _ _ _ _ _ H0 H1) as NA.
  assert (E' : (do c <- asmb k 0 (stm e) (u8 (r + 1)) c; arg_each (asmb k) true freg sreg (stms es) (u8 (r + 1)) c) = Ok (c', r')).
  { cbn [arg_each] in E. destruct (stm e) as [p a0 a1 a2]. cbn in NA. destruct p; try exact E. congruence. }
  clear E. rewrite u8_id in E' by lia. dob E'.
  eapply okA_C in E; try eassumption; try lia. subst. eapply B in E'; try eassumption; try lia; [|scq2]. destruct E'. split; [assumption|lia].
Qed.
Lemma ok_else b : ok_all b -> ok_clauses (KElse b).
Proof.
  intros B k i enc lp L L' r c c' W S R N E. rewrite wf_clauses_eq in W. cbv beta iota in W. cbn [embk need_clauses] in *. nn. one. ainv.
  change (msg_else (asmb k') (MsgOf PN_else SNil (BlockOf (stms b))) r (PN_REG r c) = Ok c') in E.
  unfold msg_else in E. cbn [s2 MsgOf] in E. unfold BlockOf in E at 1. rewrite u8_id in E by lia. dob E.
  destruct (block_inv _ _ _ _ _ (ltac:(lia) : 0 <= r <= 255) E0) as (k2 & E2).
  eapply B in E2; try eassumption; try scq2; try lia. subst. injection E as <-. reflexivity.
Qed.
Lemma ok_elsif e b q : okA e -> ok_all b -> ok_clauses q -> ok_clauses (KElsif e b q).
Proof.
  intros A B C k i enc lp L L' r c c' W S R N E. rewrite wf_clauses_eq in W. cbv beta iota in W. wfinv. cbn [embk need_clauses each_i] in *. nn. dob E. ainv.
  change (msg_elsif (asmb k') (MsgOf PN_elsif (ListOf [stm e]) (BlockOf (stms b))) r (PN_REG r c) = Ok x1) in E0.
  unfold msg_elsif in E0. cbn [s1 s2 MsgOf is_nil ListOf] in E0. rewrite !u8_id in E0 by lia.
  change (SSrc (S1 LIST (STup [stm e]))) with (ListOf [stm e]) in E0. dob E0. destruct x2 as [c2 r2].
  apply arg_one in E1. destruct E1 as [E1 ->].
  eapply okA_C in E1; try eassumption; try scq2; try lia. subst c2.
  unfold BlockOf in E0 at 1. dob E0. destruct (block_inv _ _ _ _ _ (ltac:(lia) : 0 <= r <= 255) E1) as (k2 & E2).
  eapply B in E2; try eassumption; try scq2; try lia. subst x2. injection E0 as <-.
  eapply C in E; try eassumption; try scq2; try lia.
Qed.
Lemma nil_all : ok_all Nil.
Proof. intros k enc lp L L' r c c' W S R N E. cbn in *. congruence. Qed.
Lemma nil_items : ok_items Nil.
Proof. intros k enc lp L L' r c c' W S R N E. cbn in *. congruence. Qed.
Lemma nil_args : ok_args Nil.
Proof. intros k enc lp L L' freg sreg r c c' r' W S R N E. cbn in *. injection E as <- <-. split; [reflexivity|lia]. Qed.
Lemma nil_clauses : ok_clauses KEnd.
Proof. intros k i enc lp L L' r c c' W S R N E. cbn in *. congruence. Qed.

Lemma asmb_eq : (forall e, okA e /\ okB e) /\ (forall es, ok_all es /\ ok_items es /\ ok_args es /\ ok_each es) /\ (forall q, ok_clauses q).
Proof.
  assert (AB : forall e, is_seq e = false -> okA e -> okA e /\ okB e) by (intros; split; [assumption|apply okA_B; assumption]).
  apply exp_ind3; intros;
    repeat match goal with H : okA _ /\ okB _ |- _ => pose proof (proj1 H); revert H | H : ok_all _ /\ _ |- _ => destruct H as (? & ? & ? & ?) end; intros;
    try (apply AB; [reflexivity|]).
  - apply aA_lit. - apply aA_var. - apply aA_up. - apply aA_self.
  - apply aA_bin; assumption. - apply aA_not; assumption. - apply aA_bitn; assumption.
  - apply aA_and; assumption. - apply aA_or; assumption. - apply aA_set; assumption. - apply aA_upset; assumption.
  - apply aA_glob; assumption. - apply aA_inc. - apply aA_path. - apply aA_pathof; assumption. - apply aA_pathset; assumption.
  - apply aA_list; assumption. - apply aA_send; assumption. - apply aA_send0; assumption. - apply aA_selfsend; assumption.
  - apply aA_selfsend0. - apply aA_callvar; assumption. - apply aA_callup; assumption. - apply aA_callval; assumption.
  - apply aA_if; assumption. - apply aA_while; assumption. - apply aA_loop; assumption. - apply aA_break. - apply aA_cont.
  - apply aA_return; assumption.
  - split; [|apply aB_seq; assumption]. intros k enc lp L L' r c c' W S R N D E. discriminate D.
  - apply aA_lick; assumption.
  - apply aA_at.
  - apply aA_fun; assumption.
  - split; [apply nil_all|split; [apply nil_items|split; [apply nil_args|exact Logic.I]]].
  - split; [apply ok_all_cons; assumption|split; [apply ok_items_cons; assumption|split; [apply ok_args_cons; assumption|split; assumption]]].
  - apply nil_clauses. - apply ok_else; assumption. - apply ok_elsif; assumption.
Qed.

(** a whole program *)
Definition program (es : exps) : src := S1 CODE (match es with Nil => SNil | _ => STup (stms es) end).
Definition cprog (es : exps) : cst := asm1 O_RETURN 0 (cexps es 0 (PN_REG 0 (mkC (pb0 [] []) [] [] None))).
Lemma sc0 : sc [] [] (mkC (pb0 [] []) [] [] None).
Proof. repeat split; try discriminate; exact I. Qed.
Lemma source_compile_eq k es L' m t : wf_all upper [] false [] es = Some L' -> need_all es <= 255 ->
  source_compile chr0 k (program es) = Ok (m, t) -> m = c_f (cprog es) /\ t = c_tbl (cprog es).
Proof.
  intros W N E. unfold source_compile, program, S1 in E. cbn [sp] in E. change (part_eqb CODE CODE || part_eqb CODE BLOCK) with true in E.
  cbv iota in E. dob E. apply asmb_inv in E0. destruct E0 as (k' & -> & E0). rewrite u8_id in E0 by lia.
  assert (E' : each (asmb k') (stms es) 0 (PN_REG 0 (mkC (pb0 [] []) [] [] None)) = Ok x) by (destruct es; exact E0).
  destruct (proj1 (proj2 asmb_eq) es) as (A & _). eapply A in E'; try eassumption; [|apply sc_reg, sc0|lia..]. subst x.
  injection E as <- <-. split; reflexivity.
Qed.
End Eq.
