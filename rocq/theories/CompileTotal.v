(** The compiler accepts every well-formed program whose loops have at most 1024
    breaks and 1024 continues each. *)
From Verif Require Import Base Arr GArr WordModel AsmModel CompileModel VmModel SrcSpec CompileProofs CompileEq.
From Coq Require Import ZifyBool.
Ltac Zify.zify_post_hook ::= Z.div_mod_to_equations.

(** breaks / continues of the innermost enclosing loop *)
Fixpoint jumps (br : bool) (e : exp) : Z :=
  match e with
  | EBreak => if br then 1 else 0
  | ECont => if br then 0 else 1
  | EBin _ a b | EAnd a b | EOr a b => jumps br a + jumps br b
  | ENot a | EBitn a | ESet _ a | EUpSet _ a | EGlob _ a | EPathOf a _ | EPathSet _ a | ESend0 a _ | EReturn a => jumps br a
  | EList es | ESelfSend _ es | ECallVar _ es | ECallUp _ es | ESeq es | ELick _ es => jumps_all br es
  | ESend e _ es | ECallVal e es => jumps br e + jumps_all br es
  | EIf e b k => jumps br e + jumps_all br b + jumps_clauses br k
  | EWhile e b => jumps br e
  | _ => 0
  end
with jumps_all (br : bool) (es : exps) : Z := match es with Nil => 0 | Cons e es => jumps br e + jumps_all br es end
with jumps_clauses (br : bool) (k : clauses) : Z :=
  match k with KEnd => 0 | KElse b => jumps_all br b | KElsif e b k => jumps br e + jumps_all br b + jumps_clauses br k end.
(** every loop has at most 1024 of each *)
Fixpoint few (e : exp) : bool :=
  match e with
  | EBin _ a b | EAnd a b | EOr a b => few a && few b
  | ENot a | EBitn a | ESet _ a | EUpSet _ a | EGlob _ a | EPathOf a _ | EPathSet _ a | ESend0 a _ | EReturn a => few a
  | EList es | ESelfSend _ es | ECallVar _ es | ECallUp _ es | ESeq es | ELick _ es => few_all es
  | ESend e _ es | ECallVal e es => few e && few_all es
  | EIf e b k => few e && few_all b && few_clauses k
  | EWhile e b => few e && few_all b && (jumps_all true b <=? 1024) && (jumps_all false b <=? 1024)
  | ELoop b => few_all b && (jumps_all true b <=? 1024) && (jumps_all false b <=? 1024)
  | EFun _ _ b => few_all b
  | _ => true
  end
with few_all (es : exps) : bool := match es with Nil => true | Cons e es => few e && few_all es end
with few_clauses (k : clauses) : bool :=
  match k with KEnd => true | KElse b => few_all b | KElsif e b k => few e && few_all b && few_clauses k end.

Lemma jumps_nonneg : (forall e br, 0 <= jumps br e) /\ (forall es br, 0 <= jumps_all br es) /\ (forall k br, 0 <= jumps_clauses br k).
Proof. apply exp_ind3; intros; cbn [jumps jumps_all jumps_clauses]; try destruct br; repeat match goal with IH : forall br, 0 <= _ |- _ => pose proof (IH true); pose proof (IH false); clear IH end; lia. Qed.

(** ** the pending jumps *)
Definition lpst (c : cst) : option (Z * Z) := option_map (fun p => (zlen (fst p), zlen (snd p))) (c_loop c).
Lemma lp_reg r c : lpst (PN_REG r c) = lpst c. Proof. reflexivity. Qed.
Lemma lp_asm2 o a b c : lpst (asm2 o a b c) = lpst c. Proof. reflexivity. Qed.
Lemma lp_asm1 o a c : lpst (asm1 o a c) = lpst c. Proof. reflexivity. Qed.
Lemma lp_patch_b j v c : lpst (patch_b j v c) = lpst c. Proof. reflexivity. Qed.
Lemma lp_path v c : lpst (put_path v c) = lpst c. Proof. reflexivity. Qed.
Lemma lp_value v c c1 i : put_value v c = (c1, i) -> lpst c1 = lpst c.
Proof. unfold put_value. destruct (vput _ _). intros [= <- _]. reflexivity. Qed.
Lemma lp_load v r c : lpst (load_value v r c) = lpst c.
Proof. unfold load_value. destruct (_ && _); [reflexivity|]. destruct (put_value v c) eqn:E. rewrite lp_asm2. eapply lp_value, E. Qed.
Lemma lp_loadname r n c : lpst (loadname r n c) = lpst c.
Proof. unfold loadname. destruct (put_value n c) eqn:E. rewrite lp_asm2. eapply lp_value, E. Qed.
Lemma lp_decl x c : lpst (decl x c) = lpst c.
Proof. unfold decl, put_local. destruct (vput _ _). reflexivity. Qed.
Lemma lp_useup x c : lpst (useup x c) = lpst c.
Proof. unfold useup, PN_UPVAL. destruct (vfind _ _); [reflexivity|]. destruct (vfind _ _); [reflexivity|]. destruct (find_owner _ _); reflexivity. Qed.
Lemma lp_captures us r c : lpst (captures us r c) = lpst c.
Proof. revert c. induction us as [|u us IH]; intros c; cbn; [reflexivity|]. rewrite IH. destruct (vfind _ _); reflexivity. Qed.
Lemma lp_endloop j2 j1 o r c : lpst (endloop j2 j1 o r c) = option_map (fun p => (zlen (fst p), zlen (snd p))) o.
Proof. reflexivity. Qed.
Lemma lp_endfun r c c1 : lpst (endfun r c c1) = lpst c.
Proof. unfold endfun. destruct (c_up c1); [reflexivity|]. rewrite lp_captures. reflexivity. Qed.
Create HintDb lp.
Global Hint Rewrite lp_reg lp_asm2 lp_asm1 lp_patch_b lp_path lp_load lp_loadname lp_decl lp_useup lp_captures lp_endfun : lp.
Ltac pv := repeat match goal with |- context [put_value ?v ?c] => let E := fresh in destruct (put_value v c) as [? ?] eqn:E; apply lp_value in E end.
Definition grows (br bc : Z) (c c' : cst) : Prop := forall a b, lpst c = Some (a, b) -> lpst c' = Some (a + br, b + bc).
Lemma grows_trans a b a' b' c1 c2 c3 : grows a b c1 c2 -> grows a' b' c2 c3 -> grows (a + a') (b + b') c1 c3.
Proof. intros A B x y K. rewrite (B _ _ (A _ _ K)). do 2 f_equal; lia. Qed.
Lemma grows_eq a b c1 c2 c1' c2' : grows a b c1 c2 -> lpst c1' = lpst c1 -> lpst c2' = lpst c2 -> grows a b c1' c2'.
Proof. unfold grows. intros A -> ->. exact A. Qed.
Lemma to_eq c p q p' q' : lpst c = Some (p, q) -> p = p' -> q = q' -> lpst c = Some (p', q').
Proof. intros -> -> ->. reflexivity. Qed.
Ltac chain := autorewrite with lp;
  repeat match goal with E : lpst ?c = lpst _ |- lpst ?c = _ => rewrite E end;
  first [eassumption | match goal with IH : forall r c a b, _ -> lpst _ = _ |- _ => eapply IH; chain end].
Lemma cexp_lp :
  (forall e r c, grows (jumps true e) (jumps false e) c (cexp e r c))
  /\ (forall es, (forall r c, grows (jumps_all true es) (jumps_all false es) c (cexps es r c))
       /\ (forall r c, grows (jumps_all true es) (jumps_all false es) c (citems es r c))
       /\ (forall r c, grows (jumps_all true es) (jumps_all false es) c (cargs es r c)))
  /\ (forall k r c, grows (jumps_clauses true k) (jumps_clauses false k) c (cclauses k r c)).
Proof.
  apply exp_ind3; repeat match goal with |- forall _, _ => intro end; repeat match goal with IH : _ /\ _ |- _ => destruct IH end.
  all: try (match goal with |- _ /\ _ => split; [|split] end; repeat match goal with |- forall _, _ => intro end).
  all: unfold grows in *; match goal with |- forall a b, _ => intros u0 v0 LP end.
  all: cbn [cexp cexps citems cargs cclauses jumps jumps_all jumps_clauses]; cbv zeta.
  all: try (destruct post).
  all: try match goal with ky : akey |- _ => destruct up, ky end.
  all: pv; autorewrite with lp in *.
  all: repeat match goal with E : lpst _ = lpst _ |- _ => autorewrite with lp in E end.
  all: try solve [eapply to_eq; [chain|lia|lia]].
  all: unfold lpst, set_loop, loops in *; cbn [c_loop PN_REG onf] in *; destruct (c_loop c) as [[bs cs]|]; [|discriminate]; cbn [option_map fst snd] in *; injection LP as <- <-; rewrite zlen_app; change (zlen [oplen (PN_REG r c)]) with 1; rewrite ?Z.add_0_r; reflexivity.
Qed.

(** ** success *)
Definition good {A} (x : res A) : Prop := exists y, x = Ok y.
Lemma good_ok {A} (y : A) : good (Ok y). Proof. exists y. reflexivity. Qed.
Lemma good_bind {A B} (x : res A) (k : A -> res B) : good x -> (forall y, x = Ok y -> good (k y)) -> good (bind x k).
Proof. intros [y ->] H. cbn. auto. Qed.
(** room for [a] more breaks and [b] more continues, inside a loop *)
Definition room (lp : bool) (a b : Z) (c : cst) : Prop :=
  lp = true -> exists x y, lpst c = Some (x, y) /\ x + a <= 1024 /\ y + b <= 1024.
Lemma room_eq lp a b a' b' c c' : room lp a b c -> lpst c' = lpst c -> a' <= a -> b' <= b -> room lp a' b' c'.
Proof. intros H E ? ? Q. destruct (H Q) as (x & y & P & ? & ?). exists x, y. rewrite E. repeat split; [assumption|lia|lia]. Qed.
Lemma room_grow lp a b a' b' a2 b2 c c' : grows a b c c' -> room lp a2 b2 c -> a + a' <= a2 -> b + b' <= b2 -> room lp a' b' c'.
Proof. intros G H ? ? Q. destruct (H Q) as (x & y & P & ? & ?). exists (x + a), (y + b). rewrite (G _ _ P). repeat split; lia. Qed.

(** fuel *)
Fixpoint dep (e : exp) : nat :=
  match e with
  | EBin _ a b | EAnd a b | EOr a b => S (S (S (dep a + dep b)))
  | ENot a | EBitn a | ESet _ a | EUpSet _ a | EGlob _ a | EPathOf a _ | EPathSet _ a | ESend0 a _ | EReturn a => S (S (S (dep a)))
  | EList es | ESelfSend _ es | ECallVar _ es | ECallUp _ es | ESeq es | ELoop es | ELick _ es | EFun _ _ es => S (S (S (dep_all es)))
  | ESend e _ es | ECallVal e es | EWhile e es => S (S (S (dep e + dep_all es)))
  | EIf e b k => S (S (S (dep e + dep_all b + dep_clauses k)))
  | _ => 3%nat
  end
with dep_all (es : exps) : nat := match es with Nil => 1%nat | Cons e es => S (dep e + dep_all es) end
with dep_clauses (k : clauses) : nat :=
  match k with KEnd => 1%nat | KElse b => S (S (S (dep_all b))) | KElsif e b k => S (S (S (dep e + dep_all b + dep_clauses k))) end.

Section Total.
Context (chr0 : Z -> Z).
Notation upper := (isupper chr0).
Notation asmb := (asmb chr0).
Definition tA (e : exp) : Prop := forall k enc lp L L' r c, (dep e <= k)%nat ->
  wf upper enc lp L e = Some L' -> sc enc L c -> 0 <= r -> r + need e <= 255 -> head_seq e = false ->
  few e = true -> room lp (jumps true e) (jumps false e) c ->
  good (each_i (asmb k) 0 (emb e) r c).
Definition tB (e : exp) : Prop := forall k enc lp L L' r c, (S (dep e) <= k)%nat ->
  wf upper enc lp L e = Some L' -> sc enc L c -> 0 <= r -> r + need e <= 255 -> operand e = true ->
  few e = true -> room lp (jumps true e) (jumps false e) c ->
  good (PN_ARG (asmb k) (SSrc (stm e)) r c).
Definition tC (e : exp) : Prop := forall k enc lp L L' r c, (S (dep e) <= k)%nat ->
  wf upper enc lp L e = Some L' -> sc enc L c -> 0 <= r -> r + need e <= 255 -> head_seq e = false ->
  few e = true -> room lp (jumps true e) (jumps false e) c ->
  good (asmb k 0 (stm e) r c).
Definition t_all (es : exps) : Prop := forall k enc lp L L' r c, (dep_all es <= k)%nat ->
  wf_all upper enc lp L es = Some L' -> sc enc L c -> 0 <= r -> r + need_all es <= 255 ->
  few_all es = true -> room lp (jumps_all true es) (jumps_all false es) c ->
  good (each (asmb k) (stms es) r c).
Definition t_items (es : exps) : Prop := forall k enc lp L L' r c, (dep_all es <= k)%nat ->
  wf_items upper enc lp L es = Some L' -> sc enc L c -> 0 <= r -> r + need_items es <= 255 ->
  few_all es = true -> room lp (jumps_all true es) (jumps_all false es) c ->
  good (list_items (asmb k) (stms es) r c).
Definition t_args (es : exps) : Prop := forall k enc lp L L' freg sreg r c, (dep_all es <= k)%nat ->
  wf_items upper enc lp L es = Some L' -> sc enc L c -> 0 <= r -> r + need_args es <= 255 ->
  few_all es = true -> room lp (jumps_all true es) (jumps_all false es) c ->
  good (arg_each (asmb k) true freg sreg (stms es) r c).
Definition t_clauses (q : clauses) : Prop := forall k i enc lp L L' r c, (dep_clauses q <= k)%nat ->
  wf_clauses upper enc lp L q = Some L' -> sc enc L c -> 0 <= r -> r + need_clauses q <= 255 ->
  few_clauses q = true -> room lp (jumps_clauses true q) (jumps_clauses false q) c ->
  good (each_i (asmb k) i (embk q) r c).

Lemma each1 rec i t r c : good (rec i t r c) -> good (each_i rec i [t] r c).
Proof. intros [y E]. exists y. cbn. rewrite E. reflexivity. Qed.
Lemma step k i t r c : 0 <= r <= 255 -> good (node chr0 (asmb k) i t r c) -> good (asmb (S k) i t r c).
Proof. intros R G. cbn [CompileModel.asmb]. rewrite u8_id by lia. exact G. Qed.
Lemma room_reg lp a b r c : room lp a b c -> room lp a b (PN_REG r c).
Proof. intros H. eapply room_eq; [exact H|reflexivity|lia|lia]. Qed.
Lemma tA_C e : tA e -> tC e.
Proof.
  intros HA k enc lp L L' r c K W S R N D F RM. pose proof (proj1 need_nonneg e).
  destruct (bare e) eqn:B.
  - destruct (stm_bare _ _ _ _ _ _ W B) as (t & ES & EM & _). rewrite ES.
    assert (G : good (each_i (asmb k) 0 (emb e) r c)) by (eapply HA; try eassumption; lia).
    rewrite EM in G. destruct G as [y G]. apply each_one in G. exists y. exact G.
  - rewrite (stm_expr _ B). destruct k as [|k]; [lia|]. apply step; [lia|].
    cbn [node sp S1 s0 tup bind]. eapply HA; try eassumption; [lia|apply sc_reg; assumption].
Qed.
Lemma tA_B e : tA e -> is_seq e = false -> tB e.
Proof.
  intros HA Q k enc lp L L' r c K W S R N D F RM. unfold operand in D. rewrite Q in D. cbn in D. apply negb_true_iff in D.
  assert (HS : head_seq e = false) by (destruct (head_seq e) eqn:Z; [rewrite (head_seq_list _ Z) in D; discriminate|reflexivity]).
  assert (G : good (asmb k 0 (stm e) r c)) by (eapply tA_C; eassumption).
  unfold PN_ARG. destruct (bare e) eqn:B.
  - destruct (stm_bare _ _ _ _ _ _ W B) as (t & ES & EM & PT & _). rewrite ES in *. destruct t as [p a0 a1 a2]. cbn in PT.
    destruct p; try assumption. congruence.
  - rewrite (stm_expr _ B) in *. pose proof (proj1 (emb_first _) e _ _ _ _ W D) as FF. unfold first_ok in FF.
    destruct (emb e) as [|[p a0 a1 a2] l]; [tauto|]. cbn in FF. destruct p; try assumption. congruence.
Qed.
Ltac wfinv := repeat match goal with
  | H : guard _ _ = Some _ |- _ => apply guard_Some in H; destruct H as [? H]
  | H : obind _ _ = Some _ |- _ => apply obind_Some in H; destruct H as (? & ? & H)
  | H : Some _ = Some _ |- _ => injection H as H
  | H : _ && _ = true |- _ => apply andb_prop in H; destruct H
  | H : negb _ = true |- _ => apply negb_true_iff in H
  end.
Ltac nn := repeat match goal with
  | a : exp |- _ => lazymatch goal with _ : 0 <= need a |- _ => fail | _ => pose proof (proj1 need_nonneg a) end
  | a : exps |- _ => lazymatch goal with _ : 0 <= need_all a |- _ => fail | _ => destruct (proj1 (proj2 need_nonneg) a) as (? & ? & ? & ?); pose proof (elen_nonneg a) end
  | a : clauses |- _ => lazymatch goal with _ : 0 <= need_clauses a |- _ => fail | _ => pose proof (proj2 (proj2 need_nonneg) a) end
  end.
Ltac scq := first [assumption
  | apply sc_reg; scq
  | unfold sc; rewrite skel_asm2; scq
  | unfold sc; rewrite skel_asm1; scq
  | unfold sc; rewrite skel_path; scq
  | eapply sc_pv; [eassumption|]; scq
  | eapply (proj1 (cexp_sc _)); [eassumption|]; scq].
Ltac ainv := match goal with E : CompileModel.asmb _ _ _ _ _ _ = Ok _ |- _ =>
   let k' := fresh "k'" in apply asmb_inv in E; destruct E as (k' & -> & E); rewrite u8_id in E by lia end.
Ltac scq2 := first [assumption
  | apply sc_reg; scq2
  | unfold sc; rewrite skel_asm2; scq2
  | unfold sc; rewrite skel_asm1; scq2
  | unfold sc; rewrite skel_patch_b; scq2
  | unfold sc; rewrite skel_path; scq2
  | unfold sc; rewrite skel_loop; scq2
  | eapply sc_pv; [eassumption|]; scq2
  | eapply (proj1 (cexp_sc _)); [eassumption|]; scq2
  | eapply (proj1 (proj1 (proj2 (cexp_sc _)) _)); [eassumption|]; scq2 ].
Ltac jn := repeat match goal with
  | a : exp |- _ => lazymatch goal with _ : 0 <= jumps true a |- _ => fail | _ => pose proof (proj1 jumps_nonneg a true); pose proof (proj1 jumps_nonneg a false) end
  | a : exps |- _ => lazymatch goal with _ : 0 <= jumps_all true a |- _ => fail | _ => pose proof (proj1 (proj2 jumps_nonneg) a true); pose proof (proj1 (proj2 jumps_nonneg) a false) end
  | a : clauses |- _ => lazymatch goal with _ : 0 <= jumps_clauses true a |- _ => fail | _ => pose proof (proj2 (proj2 jumps_nonneg) a true); pose proof (proj2 (proj2 jumps_nonneg) a false) end
  end.
Ltac st0 := let W := fresh "W" in
  intros k enc lp L L' r c K W S R N D F RM;
  rewrite wf_eq in W; cbv beta iota in W; wfinv; cbn [emb stms embk need need_all need_items need_args need_clauses head_seq dep dep_all dep_clauses few few_all few_clauses jumps jumps_all jumps_clauses] in *; wfinv; nn; jn.
Ltac st := st0; match goal with K : (_ <= ?kk)%nat |- _ => destruct kk as [|kk]; [lia|] end; try (apply each1; apply step; [lia|]).
Lemma tA_lit v : tA (ELit v).
Proof.
  st. unfold ValOf, S1. destruct (v =? PN_NIL); cbn [node sp s0 s1 is_nil node_value val_of bind]; apply good_ok.
Qed.
Lemma tA_var x : tA (EVar x).
Proof.
  st. cbn [node sp MsgOf].
  change (Src MSG (SVal x) SNil SNil) with (MsgOf x SNil SNil). rewrite node_msg_plain by assumption.
  unfold msg_generic. cbn [sp s0 s1 s2 MsgOf is_nil negb orb bind Z.eqb andb]. change (part_eqb MSG MSG) with true.
  destruct (upval_local _ _ _ x (sc_reg _ _ r _ S)) as (U & V); [assumption|]. rewrite U, V. apply good_ok.
Qed.
Lemma tA_up x : tA (EUp x).
Proof.
  st. cbn [node sp MsgOf].
  change (Src MSG (SVal x) SNil SNil) with (MsgOf x SNil SNil). rewrite node_msg_plain by assumption.
  unfold msg_generic. cbn [sp s0 s1 s2 MsgOf is_nil negb orb bind Z.eqb andb]. change (part_eqb MSG MSG) with true.
  destruct (useup_sc _ _ _ x (sc_reg _ _ r _ S)) as (_ & U & _); [assumption..|].
  destruct (PN_UPVAL x (PN_REG r c)) as [c1 up] eqn:V. cbn [snd] in U. subst up. apply good_ok.
Qed.
Lemma tA_self : tA ESelf.
Proof. st. apply good_ok. Qed.

(** equalities for the subterms, from [asmb_eq] *)
Lemma eqC e k enc lp L L' r c c' : wf upper enc lp L e = Some L' -> sc enc L c -> 0 <= r -> r + need e <= 255 -> head_seq e = false ->
  asmb k 0 (stm e) r c = Ok c' -> c' = cexp e r c.
Proof. eapply okA_C. apply (proj1 (asmb_eq chr0)). Qed.
Lemma eqB e k enc lp L L' r c c' : wf upper enc lp L e = Some L' -> sc enc L c -> 0 <= r -> r + need e <= 255 -> operand e = true ->
  PN_ARG (asmb k) (SSrc (stm e)) r c = Ok c' -> c' = cexp e r c.
Proof. apply (proj1 (asmb_eq chr0)). Qed.
Lemma eqA e k enc lp L L' r c c' : wf upper enc lp L e = Some L' -> sc enc L c -> 0 <= r -> r + need e <= 255 -> head_seq e = false ->
  each_i (asmb k) 0 (emb e) r c = Ok c' -> c' = cexp e r c.
Proof. apply (proj1 (asmb_eq chr0)). Qed.
Lemma eq_all es k enc lp L L' r c c' : wf_all upper enc lp L es = Some L' -> sc enc L c -> 0 <= r -> r + need_all es <= 255 ->
  each (asmb k) (stms es) r c = Ok c' -> c' = cexps es r c.
Proof. apply (proj1 (proj2 (asmb_eq chr0))). Qed.
Lemma room_cexp e lp a b a' b' r c : room lp a b c -> a' + jumps true e <= a -> b' + jumps false e <= b -> room lp a' b' (cexp e r c).
Proof. intros H ? ?. eapply room_grow; [apply (proj1 cexp_lp)|exact H|lia|lia]. Qed.
Lemma room_cexps e lp a b a' b' r c : room lp a b c -> a' + jumps_all true e <= a -> b' + jumps_all false e <= b -> room lp a' b' (cexps e r c).
Proof. intros H ? ?. eapply room_grow; [apply (proj1 (proj2 cexp_lp))|exact H|lia|lia]. Qed.
Lemma room_le lp a b a' b' c : room lp a b c -> a' <= a -> b' <= b -> room lp a' b' c.
Proof. intros H ? ?. eapply room_eq; [exact H|reflexivity|lia|lia]. Qed.
Lemma room_cexp' e lp a b r c : room lp (a + jumps true e) (b + jumps false e) c -> room lp a b (cexp e r c).
Proof. intros H. eapply room_cexp; [exact H|lia|lia]. Qed.
Lemma room_cexps' e lp a b r c : room lp (a + jumps_all true e) (b + jumps_all false e) c -> room lp a b (cexps e r c).
Proof. intros H. eapply room_cexps; [exact H|lia|lia]. Qed.
Lemma room_same lp a b c c' : lpst c' = lpst c -> room lp a b c -> room lp a b c'.
Proof. intros E H. eapply room_eq; [exact H|exact E|lia|lia]. Qed.
Ltac rm := first
  [ eassumption | eapply room_le; [eassumption|lia|lia]
  | match goal with
    | |- room _ _ _ (PN_REG _ _) => apply room_reg; rm
    | |- room ?l ?a ?b (asm2 ?o ?x ?y ?c) => change (room l a b c); rm
    | |- room ?l ?a ?b (asm1 ?o ?x ?c) => change (room l a b c); rm
    | |- room ?l ?a ?b (patch_b _ _ ?c) => change (room l a b c); rm
    | |- room ?l ?a ?b (put_path _ ?c) => change (room l a b c); rm
    | |- room _ _ _ (cexp _ _ _) => apply room_cexp'; rm
    | |- room _ _ _ (cexps _ _ _) => apply room_cexps'; rm
    | E : put_value _ _ = (?c, _) |- room _ _ _ ?c => eapply room_same; [eapply lp_value, E|rm]
    | |- room _ _ _ (decl _ _) => eapply room_same; [apply lp_decl|rm]
    | |- room _ _ _ (useup _ _) => eapply room_same; [apply lp_useup|rm]
    | |- room _ _ _ (loadname _ _ _) => eapply room_same; [apply lp_loadname|rm]
    end ].
Ltac scq3 := first [assumption | apply decl_sc; [scq3|assumption] | scq2].
Ltac fin := first [eassumption | lia | match goal with |- sc _ _ _ => first [scq2|apply decl_sc; [scq2|assumption]] | |- room _ _ _ _ => rm end].
Ltac sub H := eapply H; fin.
Lemma tA_bin p a b : tB a -> tB b -> tA (EBin p a b).
Proof.
  intros A B. st.
  assert (exists o, binop_of p = Some o) as (o & HO) by (apply src_op_spec; assumption).
  assert (G : good (node_bin (asmb k) o (Src p (SSrc (stm a)) (SSrc (stm b)) SNil) r (PN_REG r c))).
  { unfold node_bin. cbn [s0 s1]. rewrite u8_id by lia. apply good_bind; [sub A|]. intros y E. eapply eqB in E; try fin. subst.
    apply good_bind; [sub B|]. intros; apply good_ok. }
  unfold node. cbn [sp]. revert G HO. match goal with H : src_op p = true |- _ => revert H end. clear.
  destruct p; cbn [src_op binop_of]; try discriminate; intros _ E' [= <-]; exact E'.
Qed.
Lemma tA_not a : tB a -> tA (ENot a).
Proof. intros A. st. cbn [node sp s0]. apply good_bind; [sub A|]. intros; apply good_ok. Qed.
Lemma tA_bitn a : tB a -> tA (EBitn a).
Proof. intros A. st. cbn [node sp s0]. apply good_bind; [sub A|]. intros; apply good_ok. Qed.
Lemma tA_and a b : tB a -> tB b -> tA (EAnd a b).
Proof.
  intros A B. st. cbn [node sp]. unfold node_andor. cbn [s0 s1]. apply good_bind; [sub A|]. intros y E. eapply eqB in E; try fin. subst.
  apply good_bind; [sub B|]. intros; apply good_ok.
Qed.
Lemma tA_or a b : tB a -> tB b -> tA (EOr a b).
Proof.
  intros A B. st. cbn [node sp]. unfold node_andor. cbn [s0 s1]. apply good_bind; [sub A|]. intros y E. eapply eqB in E; try fin. subst.
  apply good_bind; [sub B|]. intros; apply good_ok.
Qed.
Lemma tA_set x e : tA e -> tA (ESet x e).
Proof.
  intros A. apply tA_C in A. st. cbn [node sp]. unfold node_assign. cbn [s0 s1 S1].
  cbn [rev app each_i bind]. cbn [assign_target MsgOf].
  match goal with H : upper x = false |- _ => rewrite H end.
  replace (zlen [MsgOf x SNil SNil] - 1 =? 0) with true by reflexivity.
  assert (U : PN_UPVAL x (PN_REG r c) = (PN_REG r c, None)).
  { destruct (memb x L) eqn:M.
    - apply (upval_local enc L); [apply sc_reg; assumption|assumption].
    - cbn in *. match goal with H : negb (owned enc x) = true |- _ => apply negb_true_iff in H end. apply (upval_none enc L); [apply sc_reg; assumption|assumption..]. }
  rewrite U, put_local_eq. cbn [bind s1 is_nil MsgOf]. fold (stm e). apply good_bind; [|intros; apply good_ok].
  eapply A; fin.
Qed.
Lemma tA_upset x e : tA e -> tA (EUpSet x e).
Proof.
  intros A. apply tA_C in A. st. cbn [node sp]. unfold node_assign. cbn [s0 s1 S1].
  cbn [rev app each_i bind]. cbn [assign_target MsgOf].
  match goal with H : upper x = false |- _ => rewrite H end.
  replace (zlen [MsgOf x SNil SNil] - 1 =? 0) with true by reflexivity.
  destruct (useup_sc _ _ _ x (sc_reg _ _ r _ S)) as (HS & U & _); [assumption..|].
  destruct (PN_UPVAL x (PN_REG r c)) as [c1 up] eqn:V. cbn [snd] in U.
  assert (c1 = useup x (PN_REG r c)) by (unfold useup; rewrite V; reflexivity). subst c1 up.
  cbn [bind s1 is_nil MsgOf]. fold (stm e). apply good_bind; [|intros; apply good_ok].
  eapply A; fin.
Qed.
Lemma tA_glob x e : tA e -> tA (EGlob x e).
Proof.
  intros A. apply tA_C in A. st. cbn [node sp]. unfold node_assign. cbn [s0 s1 S1].
  cbn [rev app each_i bind]. cbn [assign_target MsgOf].
  match goal with H : upper x = true |- _ => rewrite H end. rewrite !u8_id by lia.
  destruct (put_value x (PN_REG r c)) as [c1 i] eqn:PV.
  cbn [bind s1 is_nil MsgOf]. fold (stm e). apply good_bind; [|intros; apply good_ok].
  eapply A; fin.
Qed.
Lemma tA_inc x up post : tA (EInc x up post).
Proof.
  st0. assert (r + 1 <= 255) by (destruct post; lia). destruct k as [|k]; [lia|]. apply each1. apply step; [lia|].
  cbn [node sp]. unfold node_inc. cbn [s0 s1 MsgOf].
  destruct (upval_local _ _ _ x (sc_reg _ _ r _ S)) as (U & V); [assumption|]. rewrite U. rewrite put_local_eq.
  destruct (PN_IS_INT _); apply good_ok.
Qed.
Lemma tA_at up x ky : tA (EAt up x ky).
Proof.
  st0. assert (r <= 255) by (destruct ky; lia). destruct k as [|k]; [lia|]. apply each1. apply step; [lia|].
  cbn [node sp S1]. unfold node_value. cbn [s0 s1 S1].
  assert (G : forall c, good (match (match key_item ky with Src _ key _ _ => key end) with
          | SVal k =>
              let (c, n) := put_local k c in
              let c := asm2 O_GETLOCAL (r + 1) n c in
              Ok (PN_REG (r + 1) (asm2 O_GETTUPLE r (Z.lor (r + 1) ASM_TPL_IMM) c))
          | SSrc (Src VALUE k _ _) =>
              do k <- val_of k;
              if PN_IS_INT k then
                if (ASM_TPL_IMM <=? PN_INT k) || (PN_INT k <? 0) then
                  let (c, n) := put_value k c in
                  Ok (asm2 O_GETTUPLE r (r + 1) (PN_REG (r + 1) (asm2 O_LOADK (r + 1) n c)))
                else Ok (asm2 O_GETTUPLE r (PN_INT k) c)
              else
                let (c, n) := put_value k c in
                Ok (PN_REG (r + 1) (asm2 O_GETTABLE r (r + 1) (asm2 O_LOADK (r + 1) n c)))
          | _ => UB
          end)).
  { intros c0. destruct ky as [i|y|v]; cbn [key_item ValOf S1].
    - destruct (PN_NUM i =? PN_NIL); cbn [val_of bind]; repeat match goal with |- good (if ?b then _ else _) => destruct b end;
        try match goal with |- context [put_value ?a ?b] => destruct (put_value a b) end; apply good_ok.
    - destruct (put_local y c0). apply good_ok.
    - destruct (v =? PN_NIL); cbn [val_of bind]; repeat match goal with |- good (if ?b then _ else _) => destruct b end;
        try match goal with |- context [put_value ?a ?b] => destruct (put_value a b) end; apply good_ok. }
  destruct (PN_UPVAL x (PN_REG r c)) as [c1 num].
  destruct ky; apply G.
Qed.
Lemma tA_path n : tA (EPath n).
Proof. st. cbn [node sp]. unfold node_path. cbn [s0]. destruct (put_value n _). apply good_ok. Qed.
Lemma tA_pathof e n : tA e -> tA (EPathOf e n).
Proof.
  intros A. st0. rewrite (each_i_app chr0). apply good_bind; [sub A|]. intros y E. eapply eqA in E; try fin. subst.
  destruct k as [|k]; [lia|]. apply each1. apply step; [lia|]. cbn [node sp]. unfold node_path. cbn [s0]. destruct (put_value n _). apply good_ok.
Qed.
Lemma tA_pathset n e : tA e -> tA (EPathSet n e).
Proof.
  intros A. apply tA_C in A. st. cbn [node sp]. unfold node_assign. cbn [s0 s1 S1].
  cbn [rev app each_i bind]. cbn [assign_target].
  rewrite !u8_id by lia. replace (r + 1 + 1) with (r + 2) by lia.
  destruct (put_value n (PN_REG r c)) as [c1 i] eqn:PV.
  match goal with |- context [zlen ?l - 1 =? 0] => replace (zlen l - 1 =? 0) with true by reflexivity end.
  cbn [bind s1 is_nil MsgOf]. fold (stm e). apply good_bind; [|intros; apply good_ok]. eapply A; fin.
Qed.
Lemma tA_list es : t_items es -> tA (EList es).
Proof.
  intros A. st. unfold S1. cbn [node sp s0].
  assert (G : good (list_items (asmb k) (stms es) r (asm1 O_NEWTUPLE r (PN_REG r c)))) by (eapply A; fin).
  destruct es; exact G.
Qed.
Lemma arg_good k es r c : good (arg_each (asmb k) true r (u8 (r + zlen (stms es) + 1)) (stms es) r c) ->
  good (arg_asmb (asmb k) (ListOf (stms es)) r true c).
Proof. unfold arg_asmb, ListOf, S1. destruct (stms es); auto. Qed.
Lemma good_let {A B} (p : A * B) {C} (f : A -> B -> res C) : (forall x y, p = (x, y) -> good (f x y)) -> good (let (x, y) := p in f x y).
Proof. destruct p. auto. Qed.
Lemma send_good k n m es r c : 0 <= r -> r + 1 <= 255 ->
  (n =? 0) = false \/ ((n =? 0) = true /\ PN_UPVAL m c = (c, None) /\ vfind (b_locals (c_f c)) m = None) ->
  good (arg_each (asmb k) true (r + 1) (u8 (r + 1 + zlen (stms es) + 1)) (stms es) (r + 1)
    (let (c1, i) := put_value m c in
     asm2 O_MSG r (r + 1) (asm2 O_LOADK r i (if n =? 0 then asm1 O_SELF (r + 1) c1 else asm2 O_MOVE (r + 1) r c1)))) ->
  good (msg_generic chr0 (asmb k) (MsgOf m (ListOf (stms es)) SNil) n r c).
Proof.
  intros R R1 Hn E. unfold msg_generic. cbn [sp s0 s1 s2 MsgOf is_nil ListOf negb orb bind andb].
  change (part_eqb MSG MSG) with true. change (part_eqb MSG QUERY) with false. rewrite andb_true_r.
  assert (Q : (if n =? 0 then let (c, up) := PN_UPVAL m c in match up with Some i => (c, Some i, O_GETUPVAL) | None => (c, vfind (b_locals (c_f c)) m, O_GETLOCAL) end else (c, None, O_GETUPVAL))
     = (c, None, if n =? 0 then O_GETLOCAL else O_GETUPVAL)).
  { destruct Hn as [->|(-> & -> & ->)]; reflexivity. }
  rewrite Q. rewrite u8_id by lia. destruct (put_value m c) as [c1 i].
  change (is_part LIST (SSrc (S1 LIST match stms es with [] => SNil | _ :: _ => STup (stms es) end))) with true.
  rewrite orb_true_r. cbn [bind]. apply good_bind; [apply arg_good; exact E|].
  intros [c2 r2] _. cbn [bind]. change (is_part BLOCK SNil) with false. cbn [bind]. apply good_ok.
Qed.
Lemma send0_good k n m r c : 0 <= r -> r + 2 <= 255 ->
  (n =? 0) = false \/ ((n =? 0) = true /\ PN_UPVAL m c = (c, None) /\ vfind (b_locals (c_f c)) m = None) ->
  good (msg_generic chr0 (asmb k) (MsgOf m SNil SNil) n r c).
Proof.
  intros R R1 Hn. unfold msg_generic. cbn [sp s0 s1 s2 MsgOf is_nil negb orb bind andb].
  change (part_eqb MSG MSG) with true. change (part_eqb MSG QUERY) with false. rewrite andb_true_r.
  assert (Q : (if n =? 0 then let (c, up) := PN_UPVAL m c in match up with Some i => (c, Some i, O_GETUPVAL) | None => (c, vfind (b_locals (c_f c)) m, O_GETLOCAL) end else (c, None, O_GETUPVAL))
     = (c, None, if n =? 0 then O_GETLOCAL else O_GETUPVAL)).
  { destruct Hn as [->|(-> & -> & ->)]; reflexivity. }
  rewrite Q. destruct (put_value m c) as [c1 i]. cbn [bind arg_asmb]. change (is_part BLOCK SNil) with false. cbn [bind andb]. apply good_ok.
Qed.
Lemma call_good k t n o i es r c c1 : 0 <= r -> r + 1 <= 255 ->
  sp t = MSG -> s1 t = ListOf (stms es) -> s2 t = SNil ->
  (s0 t = SNil /\ i = None /\ c1 = c /\ (n =? 0) = false
   \/ exists x, s0 t = SVal x /\ n = 0 /\
      (exists u, PN_UPVAL x c = (c1, Some u) /\ i = Some u /\ o = O_GETUPVAL
       \/ PN_UPVAL x c = (c1, None) /\ vfind (b_locals (c_f c1)) x = Some u /\ i = Some u /\ o = O_GETLOCAL)) ->
  good (arg_each (asmb k) true (r + 1) (u8 (r + 1 + zlen (stms es) + 1)) (stms es) (r + 1)
    (asm1 O_SELF (r + 1) (match i with Some i => asm2 o r i c1 | None => c1 end))) ->
  good (msg_generic chr0 (asmb k) t n r c).
Proof.
  intros R R1 T1 T2 T3 Q E. unfold msg_generic. rewrite T1, T2, T3.
  cbn [is_nil ListOf negb orb bind andb]. change (part_eqb MSG MSG) with true.
  destruct Q as [(Q0 & -> & -> & Qn)|(x & Q0 & -> & Q)]; rewrite Q0; cbn [bind].
  - rewrite Qn. cbn [andb]. rewrite u8_id by lia. apply good_bind; [apply arg_good; exact E|]. intros [c2 r2] _. apply good_ok.
  - cbn [Z.eqb andb]. destruct Q as (u & [(Q & -> & ->)|(Q & V & -> & ->)]); rewrite Q; try rewrite V;
    rewrite u8_id by lia; (apply good_bind; [apply arg_good; exact E|]; intros [c2 r2] _; apply good_ok).
Qed.
Lemma tA_send e m es : tA e -> t_args es -> tA (ESend e m es).
Proof.
  intros A B. st0. rewrite (each_i_app chr0). apply good_bind; [sub A|]. intros y E. eapply eqA in E; try fin. subst.
  destruct k as [|k]; [lia|]. apply each1. apply step; [lia|]. cbn [node sp MsgOf].
  change (Src MSG ?a ?b ?c) with (MsgOf m (ListOf (stms es)) SNil). rewrite node_msg_plain by assumption.
  apply send_good; [lia|lia|left; apply zlen_emb|]. destruct (put_value m _) as [c2 i] eqn:PV. rewrite zlen_emb. sub B.
Qed.
Lemma tA_send0 e m : tA e -> tA (ESend0 e m).
Proof.
  intros A. st0. rewrite (each_i_app chr0). apply good_bind; [sub A|]. intros y E. eapply eqA in E; try fin. subst.
  destruct k as [|k]; [lia|]. apply each1. apply step; [lia|]. cbn [node sp MsgOf].
  change (Src MSG ?a ?b ?c) with (MsgOf m SNil SNil). rewrite node_msg_plain by assumption.
  apply send0_good; [lia|lia|left; apply zlen_emb].
Qed.
Lemma tA_selfsend m es : t_args es -> tA (ESelfSend m es).
Proof.
  intros B. st. cbn [node sp MsgOf].
  change (Src MSG ?a ?b ?c) with (MsgOf m (ListOf (stms es)) SNil). rewrite node_msg_plain by assumption.
  apply send_good; [lia|lia|right; split; [reflexivity|apply (upval_none enc L); [scq|assumption..]]|].
  destruct (put_value m _) as [c2 i] eqn:PV. change (0 =? 0) with true. sub B.
Qed.
Lemma tA_selfsend0 m : tA (ESelfSend0 m).
Proof.
  st. cbn [node sp MsgOf].
  change (Src MSG ?a ?b ?c) with (MsgOf m SNil SNil). rewrite node_msg_plain by assumption.
  apply send0_good; [lia|lia|right; split; [reflexivity|apply (upval_none enc L); [scq|assumption..]]].
Qed.
Lemma tA_callvar x es : t_args es -> tA (ECallVar x es).
Proof.
  intros B. st. cbn [node sp MsgOf].
  change (Src MSG ?a ?b ?c) with (MsgOf x (ListOf (stms es)) SNil). rewrite node_msg_plain by assumption.
  destruct (upval_local _ _ _ x (sc_reg _ _ r _ S)) as (U & V); [assumption|].
  eapply call_good with (n := 0) (es := es); [lia|lia|reflexivity|reflexivity|reflexivity| |].
  { right. exists x. split; [reflexivity|]. split; [reflexivity|]. eexists. right. repeat split; eassumption || reflexivity. }
  sub B.
Qed.
Lemma tA_callup x es : t_args es -> tA (ECallUp x es).
Proof.
  intros B. st. cbn [node sp MsgOf].
  change (Src MSG ?a ?b ?c) with (MsgOf x (ListOf (stms es)) SNil). rewrite node_msg_plain by assumption.
  destruct (useup_sc _ _ _ x (sc_reg _ _ r _ S)) as (HS & U & _); [assumption..|].
  destruct (PN_UPVAL x (PN_REG r c)) as [c1 up] eqn:V. cbn [snd] in U.
  assert (c1 = useup x (PN_REG r c)) by (unfold useup; rewrite V; reflexivity). subst c1 up.
  eapply call_good with (n := 0) (es := es); [lia|lia|reflexivity|reflexivity|reflexivity| |].
  { right. exists x. split; [reflexivity|]. split; [reflexivity|]. eexists. left. repeat split; eassumption || reflexivity. }
  sub B.
Qed.
Lemma tA_callval e es : tA e -> t_args es -> tA (ECallVal e es).
Proof.
  intros A B. st0. rewrite (each_i_app chr0). apply good_bind; [sub A|]. intros y E. eapply eqA in E; try fin. subst.
  destruct k as [|k]; [lia|]. apply each1. apply step; [lia|]. cbn [node sp]. rewrite kw_nil.
  eapply call_good with (i := None) (o := O_NONE) (es := es); [lia|lia|reflexivity|reflexivity|reflexivity| |].
  { left. repeat split. apply zlen_emb. }
  sub B.
Qed.
Lemma arg1_good k t r c : good (asmb k 0 t r c) -> good (arg_asmb (asmb k) (ListOf [t]) r false c).
Proof. intros [y E]. cbn [arg_asmb ListOf S1 arg_each]. rewrite E. apply good_ok. Qed.
Lemma block_good k es r c : 0 <= r <= 255 -> good (each (asmb k) (stms es) r (PN_REG r c)) ->
  good (match BlockOf (stms es) with SSrc b => asmb (S k) 0 b r c | _ => UB end).
Proof. intros R G. unfold BlockOf. apply step; [lia|]. destruct (stms es); exact G. Qed.
Lemma tA_if e b q : tA e -> t_all b -> t_clauses q -> tA (EIf e b q).
Proof.
  intros A B C. apply tA_C in A. st. cbn [each_i]. apply good_bind.
  - apply step; [lia|].
    change (good (msg_if (asmb k) (MsgOf PN_if (ListOf [stm e]) (BlockOf (stms b))) r (PN_REG r c))).
    unfold msg_if. cbn [s1 s2 MsgOf is_nil ListOf]. rewrite u8_id by lia.
    change (SSrc (S1 LIST (STup [stm e]))) with (ListOf [stm e]). apply good_bind; [apply arg1_good; sub A|].
    intros [c2 r2] E. apply arg_one in E. destruct E as [E ->]. eapply eqC in E; try fin. subst c2. destruct k as [|k]; [lia|].
    apply good_bind; [|intros; apply good_ok]. apply (block_good k); [lia|]. sub B.
  - intros y E. apply asmb_inv in E. destruct E as (k' & EK & E). injection EK as <-. rewrite u8_id in E by lia.
    change (msg_if (asmb k) (MsgOf PN_if (ListOf [stm e]) (BlockOf (stms b))) r (PN_REG r c) = Ok y) in E.
    assert (E' : y = cexp (EIf e b KEnd) r c).
    { unfold msg_if in E. cbn [s1 s2 MsgOf is_nil ListOf] in E. rewrite u8_id in E by lia.
      change (SSrc (S1 LIST (STup [stm e]))) with (ListOf [stm e]) in E. dob E. destruct x1 as [c2 r2].
      apply arg_one in E0. destruct E0 as [E0 ->]. eapply eqC in E0; try fin. subst c2.
      unfold BlockOf in E at 1. dob E. destruct (block_inv _ _ _ _ _ _ (ltac:(lia) : 0 <= r <= 255) E0) as (k2 & E2).
      eapply eq_all in E2; try fin. subst x1. injection E as <-. reflexivity. }
    clear E. subst y. cbn [cexp cclauses]. cbv zeta. eapply C; fin.
Qed.
Lemma room_loop c : room true 1024 1024 (set_loop (Some ([], [])) c).
Proof. intros _. exists 0, 0. repeat split; lia. Qed.
Lemma tA_while e b : tA e -> t_all b -> tA (EWhile e b).
Proof.
  intros A B. apply tA_C in A. st.
  change (good (msg_while (asmb k) true (MsgOf PN_while (ListOf [stm e]) (BlockOf (stms b))) r (PN_REG r c))).
  unfold msg_while. cbn [s1 s2 MsgOf]. rewrite u8_id by lia.
  apply good_bind. { apply good_bind; [apply arg1_good; sub A|]. intros [? ?] _. apply good_ok. }
  intros [[c2 r2] j2] E. dob E. destruct x0 as [c3 r3]. apply arg_one in E0. destruct E0 as [E0 ->]. eapply eqC in E0; try fin. subst c3.
  injection E as <- <- <-. destruct k as [|k]; [lia|].
  pose proof (room_loop (asm2 O_NOTJMP (r + 1) 0 (cexp e (r + 1) (PN_REG r c)))) as RL.
  apply good_bind.
  - apply (block_good k); [lia|]. eapply B; fin.
  - intros y E. destruct (block_inv _ _ _ _ _ _ (ltac:(lia) : 0 <= r <= 255) E) as (k2 & E2).
    eapply eq_all in E2; try fin. subst y.
    destruct (proj1 (proj2 cexp_lp) b) as (G & _). specialize (G r (PN_REG r (set_loop (Some ([], [])) (asm2 O_NOTJMP (r + 1) 0 (cexp e (r + 1) (PN_REG r c)))))).
    specialize (G 0 0 eq_refl). unfold lpst in G. destruct (c_loop (cexps b r _)) as [[bs cs]|]; [apply good_ok|discriminate].
Qed.
Lemma tA_loop b : t_all b -> tA (ELoop b).
Proof.
  intros B. st.
  change (good (msg_while (asmb k) false (MsgOf PN_loop SNil (BlockOf (stms b))) r (PN_REG r c))).
  unfold msg_while. cbn [s1 s2 MsgOf bind]. rewrite u8_id by lia. destruct k as [|k]; [lia|].
  pose proof (room_loop (PN_REG r c)) as RL.
  apply good_bind.
  - apply (block_good k); [lia|]. eapply B; fin.
  - intros y E. destruct (block_inv _ _ _ _ _ _ (ltac:(lia) : 0 <= r <= 255) E) as (k2 & E2).
    eapply eq_all in E2; try fin. subst y.
    destruct (proj1 (proj2 cexp_lp) b) as (G & _). specialize (G r (PN_REG r (set_loop (Some ([], [])) (PN_REG r c)))).
    specialize (G 0 0 eq_refl). unfold lpst in G. destruct (c_loop (cexps b r _)) as [[bs cs]|]; [apply good_ok|discriminate].
Qed.
Lemma tA_break : tA EBreak.
Proof.
  st. subst. change (good (msg_break r (PN_REG r c))). unfold msg_break. change (c_loop (PN_REG r c)) with (c_loop c).
  destruct (RM eq_refl) as (x & y & P & ? & ?). unfold lpst in P. destruct (c_loop c) as [[bs cs]|]; [|discriminate].
  cbn in P. injection P as <- <-. unfold MAX_JUMPS. replace (zlen bs <? 1024) with true by lia. apply good_ok.
Qed.
Lemma tA_cont : tA ECont.
Proof.
  st. subst. change (good (msg_continue r (PN_REG r c))). unfold msg_continue. change (c_loop (PN_REG r c)) with (c_loop c).
  destruct (RM eq_refl) as (x & y & P & ? & ?). unfold lpst in P. destruct (c_loop c) as [[bs cs]|]; [|discriminate].
  cbn in P. injection P as <- <-. unfold MAX_JUMPS. replace (zlen cs <? 1024) with true by lia. apply good_ok.
Qed.
Lemma tA_return e : tA e -> tA (EReturn e).
Proof.
  intros A. apply tA_C in A. st.
  change (good (msg_return (asmb k) (MsgOf PN_return (ListOf [stm e]) SNil) r (PN_REG r c))).
  unfold msg_return. cbn [s1 MsgOf]. apply good_bind; [apply arg1_good; sub A|]. intros [? ?] _. apply good_ok.
Qed.
Lemma tA_fun l ps b : t_all b -> tA (EFun l ps b).
Proof.
  intros B. st.
  change (good (PN_BLOCK chr0 (asmb k) r (BlockOf (stms b)) (match ps with [] => SNil | _ => SSrc (S1 LIST (STup (map param ps))) end) (PN_REG r c))).
  unfold PN_BLOCK. unfold BlockOf, S1 at 1. change (part_eqb BLOCK CODE || part_eqb BLOCK BLOCK) with true. cbv iota.
  rewrite sig_params by assumption. cbn [bind fst snd]. destruct k as [|k]; [lia|].
  assert (SC : sc (L :: enc) ps (mkC (pb0 ps ps) (c_f (PN_REG r c) :: c_up (PN_REG r c)) (c_tbl (PN_REG r c)) None)).
  { pose proof (sc_reg _ _ r _ S) as (K1 & K2 & K3 & K4). cbn [skel fst snd] in K1, K2, K3, K4.
    split; [reflexivity|]. cbn [skel fst snd c_up map c_f pb0 b_upvals chain_ok]. split; [congruence|]. split; [intros y Y; discriminate|].
    split; [|exact K4]. rewrite K1, K2. exact K3. }
  apply good_bind.
  - apply (block_good k b 0); [lia|]. eapply B; try fin; first [apply sc_reg; exact SC|intros Q; discriminate].
  - intros y E. destruct (block_inv chr0 _ b _ _ _ (ltac:(lia) : 0 <= 0 <= 255) E) as (k2 & E2).
    eapply eq_all in E2; try eassumption; try (apply sc_reg; exact SC); try lia.
    match goal with W : wf_all _ (L :: enc) _ _ _ = Some _ |- _ => pose proof (proj1 (proj1 (proj2 (cexp_sc _)) b) _ _ _ _ 0 _ W (sc_reg _ _ 0 _ SC)) as (_ & Q & _) end.
    rewrite <- E2 in Q. cbn [skel fst snd] in Q. destruct (c_up y) as [|f up]; [discriminate|]. destruct (vput _ _). apply good_ok.
Qed.
Fixpoint t_each (es : exps) : Prop := match es with Nil => True | Cons e es => tA e /\ t_each es end.
Lemma part_good k e enc lp L L' r c t : tA e -> (dep e <= k)%nat -> wf upper enc lp L e = Some L' -> sc enc L c -> 0 <= r -> r + need e <= 255 ->
  head_seq e = false -> few e = true -> room lp (jumps true e) (jumps false e) c -> emb e = [t] -> good (asmb k 0 t r c).
Proof.
  intros A K W S R N D F RM T. assert (G : good (each_i (asmb k) 0 (emb e) r c)) by (eapply A; eassumption).
  rewrite T in G. destruct G as [y G]. apply each_one in G. exists y. exact G.
Qed.
Lemma tA_lick n es : t_each es -> tA (ELick n es).
Proof.
  intros A. st.
  assert (G : good (node_lick (asmb k) (match emb (ELick n es) with t :: _ => t | [] => S1 CODE SNil end) r (PN_REG r c))).
  2: { destruct es as [|a [|b es]]; exact G. }
  unfold node_lick.
  destruct es as [|a es]; [|destruct es as [|b es]; [|destruct es; [|discriminate]]]; cbn [emb s0 s1 s2];
    destruct (put_value n (PN_REG r c)) as [c1 kk] eqn:P;
    cbn [is_nil bind elen cargs need_args lick_parts t_each few_all jumps_all dep_all] in *; wfinv.
  - apply good_ok.
  - destruct A as [A _]. destruct (lick_tree a) as (t & T); [assumption|]. rewrite T. cbn [one].
    rewrite wf_items_eq in W. wfinv. nn. jn. rewrite u8_id by lia.
    apply good_bind; [|intros [? ?] _; cbn [bind]; apply good_ok]. apply good_bind; [|intros; apply good_ok].
    eapply (part_good _ a); try eassumption; fin.
  - destruct A as [A [B _]].
    match goal with Q : is_list b = true |- _ => destruct (list_value b Q) as (VB & t' & T') end. rewrite T'.
    destruct (lick_tree a) as (t & T); [assumption|]. rewrite T. cbn [one].
    rewrite wf_items_eq in W. wfinv. rewrite wf_items_eq in W. wfinv. nn. jn. rewrite (u8_id (r + 1)) by lia.
    assert (G : forall c2, sc enc x c2 -> room lp (jumps true b) (jumps false b) c2 ->
      good (do cb <- (do c <- asmb k 0 t' (u8 (r + 1 + 1)) c2; Ok (c, u8 (r + 1 + 1)));
            let (c, breg) := (cb : cst * Z) in Ok (PN_REG breg (asm2 O_NEWLICK r breg c)))).
    { intros c2 S2 R2. rewrite u8_id by lia. apply good_bind; [|intros [? ?] _; apply good_ok]. apply good_bind; [|intros; apply good_ok].
      eapply (part_good _ b); try eassumption; fin. }
    destruct (no_inner a) eqn:NI.
    + cbn [is_nil bind]. apply G; [|rm]. destruct a; try discriminate.
      match goal with Q : wf _ _ _ _ (ELit _) = Some _ |- _ => cbn in Q; injection Q as <- end. scq2.
    + apply good_bind.
      * apply good_bind; [|intros; apply good_ok]. eapply (part_good _ a); try eassumption; fin.
      * intros [c2 b2] E. dob E. injection E as <- <-.
        eapply (part_inv chr0 _ a) in E0; try eassumption; try fin.
        2: { apply (proj1 (proj1 (asmb_eq chr0) a)). }
        subst. apply G; [|rm]. eapply (proj1 (cexp_sc _)); [eassumption|]. scq2.
Qed.
Lemma tB_seq es : t_all es -> tB (ESeq es).
Proof.
  intros B k enc lp L L' r c K W S R N D F RM. rewrite wf_eq in W. cbv beta iota in W. wfinv. cbn [need few jumps dep] in *.
  destruct es as [|e es]; [discriminate|]. unfold stm, wrap. cbn [emb bare]. unfold S1, PN_ARG. cbn [tup bind].
  eapply B; try eassumption. lia.
Qed.
Ltac stl H := rewrite H; cbv beta iota.
Lemma t_all_cons e es : tA e -> t_all es -> t_all (Cons e es).
Proof.
  intros A B k enc lp L L' r c K W S R N F RM. apply tA_C in A. rewrite wf_all_eq in W. cbv beta iota in W. wfinv.
  cbn [need_all stms each few_all jumps_all dep_all] in *. wfinv. nn. jn. fold (stm e).
  apply good_bind; [sub A|]. intros y E. eapply eqC in E; try fin. subst. sub B.
Qed.
Lemma t_items_cons e es : tA e -> t_items es -> t_items (Cons e es).
Proof.
  intros A B k enc lp L L' r c K W S R N F RM. apply tA_C in A. rewrite wf_items_eq in W. cbv beta iota in W. wfinv.
  cbn [need_items stms list_items few_all jumps_all dep_all] in *. wfinv. nn. jn. fold (stm e).
  match goal with H : is_assign e = false, W : wf _ _ _ _ e = Some _ |- _ => pose proof (stm_item _ _ _ _ _ _ W H) as NA end.
  assert (G : good (do c <- (do c <- asmb k 0 (stm e) (u8 (r + 1)) c; Ok (PN_REG (r + 1) (asm2 O_SETTUPLE r (r + 1) c))); list_items (asmb k) (stms es) r c)).
  { rewrite u8_id by lia. apply good_bind; [apply good_bind; [sub A|]; intros; apply good_ok|].
    intros y E. dob E. injection E as <-. eapply eqC in E0; try fin. subst. sub B. }
  destruct (stm e) as [p a0 a1 a2]. cbn in NA. destruct p; try exact G. congruence.
Qed.
Lemma t_args_cons e es : tA e -> t_args es -> t_args (Cons e es).
Proof.
  intros A B k enc lp L L' freg sreg r c K W S R N F RM. apply tA_C in A. rewrite wf_items_eq in W. cbv beta iota in W. wfinv.
  cbn [need_args stms few_all jumps_all dep_all] in *. wfinv. nn. jn. fold (stm e).
  match goal with H : is_assign e = false, W : wf _ _ _ _ e = Some _ |- _ => pose proof (stm_item _ _ _ _ _ _ W H) as NA end.
  assert (G : good (do c <- asmb k 0 (stm e) (u8 (r + 1)) c; arg_each (asmb k) true freg sreg (stms es) (u8 (r + 1)) c)).
  { rewrite u8_id by lia. apply good_bind; [sub A|]. intros y E. eapply eqC in E; try fin. subst. sub B. }
  cbn [arg_each]. destruct (stm e) as [p a0 a1 a2]. cbn in NA. destruct p; try exact G. congruence.
Qed.
Lemma t_else b : t_all b -> t_clauses (KElse b).
Proof.
  intros B k i enc lp L L' r c K W S R N F RM. rewrite wf_clauses_eq in W. cbv beta iota in W. cbn [embk need_clauses few_clauses jumps_clauses dep_clauses] in *. nn.
  destruct k as [|k]; [lia|]. apply each1. apply step; [lia|].
  change (good (msg_else (asmb k) (MsgOf PN_else SNil (BlockOf (stms b))) r (PN_REG r c))).
  unfold msg_else. cbn [s2 MsgOf]. rewrite u8_id by lia. destruct k as [|k]; [lia|].
  apply good_bind; [|intros; apply good_ok]. apply (block_good k); [lia|]. sub B.
Qed.
Lemma t_elsif e b q : tA e -> t_all b -> t_clauses q -> t_clauses (KElsif e b q).
Proof.
  intros A B C k i enc lp L L' r c K W S R N F RM. apply tA_C in A. rewrite wf_clauses_eq in W. cbv beta iota in W. wfinv.
  cbn [embk need_clauses few_clauses jumps_clauses dep_clauses each_i] in *. wfinv. nn. jn. destruct k as [|k]; [lia|]. apply good_bind.
  - apply step; [lia|].
    change (good (msg_elsif (asmb k) (MsgOf PN_elsif (ListOf [stm e]) (BlockOf (stms b))) r (PN_REG r c))).
    unfold msg_elsif. cbn [s1 s2 MsgOf is_nil ListOf]. rewrite !u8_id by lia.
    change (SSrc (S1 LIST (STup [stm e]))) with (ListOf [stm e]). apply good_bind; [apply arg1_good; sub A|].
    intros [c2 r2] E. apply arg_one in E. destruct E as [E ->]. eapply eqC in E; try fin. subst c2. destruct k as [|k]; [lia|].
    apply good_bind; [|intros; apply good_ok]. apply (block_good k); [lia|]. sub B.
  - intros y E. apply asmb_inv in E. destruct E as (k' & EK & E). injection EK as <-. rewrite u8_id in E by lia.
    change (msg_elsif (asmb k) (MsgOf PN_elsif (ListOf [stm e]) (BlockOf (stms b))) r (PN_REG r c) = Ok y) in E.
    assert (E' : y = cclauses (KElsif e b KEnd) r c).
    { unfold msg_elsif in E. cbn [s1 s2 MsgOf is_nil ListOf] in E. rewrite !u8_id in E by lia.
      change (SSrc (S1 LIST (STup [stm e]))) with (ListOf [stm e]) in E. dob E. destruct x1 as [c2 r2].
      apply arg_one in E0. destruct E0 as [E0 ->]. eapply eqC in E0; try fin. subst c2.
      unfold BlockOf in E at 1. dob E. destruct (block_inv _ _ _ _ _ _ (ltac:(lia) : 0 <= r <= 255) E0) as (k2 & E2).
      eapply eq_all in E2; try fin. subst x1. injection E as <-. reflexivity. }
    clear E. subst y. cbn [cclauses]. cbv zeta. eapply C; fin.
Qed.
Lemma total : (forall e, tA e /\ tB e) /\ (forall es, t_all es /\ t_items es /\ t_args es /\ t_each es) /\ (forall q, t_clauses q).
Proof.
  assert (AB : forall e, is_seq e = false -> tA e -> tA e /\ tB e) by (intros; split; [assumption|apply tA_B; assumption]).
  apply exp_ind3; intros;
    repeat match goal with H : tA _ /\ tB _ |- _ => destruct H | H : t_all _ /\ _ |- _ => destruct H as (? & ? & ? & ?) end;
    try (apply AB; [reflexivity|]).
  - apply tA_lit. - apply tA_var. - apply tA_up. - apply tA_self.
  - apply tA_bin; assumption. - apply tA_not; assumption. - apply tA_bitn; assumption.
  - apply tA_and; assumption. - apply tA_or; assumption. - apply tA_set; assumption. - apply tA_upset; assumption.
  - apply tA_glob; assumption. - apply tA_inc. - apply tA_path. - apply tA_pathof; assumption. - apply tA_pathset; assumption.
  - apply tA_list; assumption. - apply tA_send; assumption. - apply tA_send0; assumption. - apply tA_selfsend; assumption.
  - apply tA_selfsend0. - apply tA_callvar; assumption. - apply tA_callup; assumption. - apply tA_callval; assumption.
  - apply tA_if; assumption. - apply tA_while; assumption. - apply tA_loop; assumption. - apply tA_break. - apply tA_cont.
  - apply tA_return; assumption.
  - split; [|apply tB_seq; assumption]. intros k enc lp L L' r c K W S R N D. discriminate D.
  - apply tA_lick; assumption.
  - apply tA_at.
  - apply tA_fun; assumption.
  - split; [|split; [|split; [|exact Logic.I]]]; intros k enc lp L L'; intros; apply good_ok.
  - split; [apply t_all_cons; assumption|split; [apply t_items_cons; assumption|split; [apply t_args_cons; assumption|split; assumption]]].
  - intros k i enc lp L L'; intros; apply good_ok. - apply t_else; assumption. - apply t_elsif; assumption.
Qed.
Lemma compile_total k es L' : wf_all upper [] false [] es = Some L' -> need_all es <= 255 -> few_all es = true ->
  (S (dep_all es) <= k)%nat -> source_compile chr0 k (program es) = Ok (c_f (cprog es), c_tbl (cprog es)).
Proof.
  intros W N F K. assert (G : good (source_compile chr0 k (program es))).
  { unfold source_compile, program, S1. cbn [sp]. change (part_eqb CODE CODE || part_eqb CODE BLOCK) with true. cbv iota.
    destruct k as [|k]; [lia|]. apply good_bind; [|intros; apply good_ok]. apply step; [lia|].
    assert (G : good (each (asmb k) (stms es) 0 (PN_REG 0 (mkC (pb0 [] []) [] [] None)))).
    { eapply (proj1 (proj2 total) es); try eassumption; first [lia|apply sc_reg, sc0|intros Q; discriminate]. }
    destruct es; exact G. }
  destruct G as ([m t] & G). rewrite G. destruct (source_compile_eq _ _ _ _ _ _ W N G) as [-> ->]. reflexivity.
Qed.
End Total.
