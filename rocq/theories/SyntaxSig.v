(** The rules for signatures against SigText. *)
From Verif Require Import Base WordModel WordProofs NumModel NumProofs CompileModel SrcSpec PegModel PegTerm SyntaxModel SyntaxTerm PegProofs TextSpec SyntaxLex SyntaxLit SyntaxCall SigModel PropSig SigText.
From Coq Require Import ZifyBool Arith.PeanoNat.
Ltac Zify.zify_post_hook ::= Z.div_mod_to_equations.

(** ** What the emitted actions do to the signature and to the string buffer *)
Definition sig_act (a : act) : bool :=
  match a with ATpl3 _ _ _ | ATpl3n _ _ | ATpl2 _ _ | ATplD _ _ | ATpl1 _ | ATplc _ | ATup0 => true | _ => false end.
Definition nosig (t : thunk act) : bool := match t with TAct a _ => negb (sig_act a) | _ => true end.
Section Structure.
  (** rules in [pr] only emit actions in [pa] *)
  Context (pa : act -> bool) (pr : rule -> bool).
  Fixpoint within (e : gpe) : bool :=
    match e with
    | Chr _ | Str _ | Cls _ | Dot | Bg | En => true
    | Act a => pa a
    | Seq a b | Alt a b => within a && within b
    | Star a | Plus a | Opt a | Nt a => within a
    | Rul r | Var _ r => pr r
    end.
  Hypothesis pr_ok : forall r, pr r = true -> within (grammar r) = true.
  Definition th_ok (t : thunk act) : bool := match t with TAct a _ => pa a | _ => true end.
  Lemma within_ok : forall n e s be r be' t, within e = true -> grun n e s be = Some (Match r be' t) -> forallb th_ok t = true.
  Proof.
    induction n as [|n IH]; intros e s be r be' t W H; [discriminate H|].
    destruct e; cbn [run] in H; cbn [within] in W.
    - destruct s as [|x s]; [discriminate H|]. destruct (x =? c); [|discriminate H]. injection H as <- <- <-. reflexivity.
    - destruct (match_str l s); [|discriminate H]. injection H as <- <- <-. reflexivity.
    - destruct s as [|x s]; [discriminate H|]. destruct (f x); [|discriminate H]. injection H as <- <- <-. reflexivity.
    - destruct s as [|x s]; [discriminate H|]. injection H as <- <- <-. reflexivity.
    - apply andb_true_iff in W. destruct W as [W1 W2].
      destruct (grun n e1 s be) as [[s1 b1 t1|b1]|] eqn:E1; try discriminate.
      destruct (grun n e2 s1 b1) as [[s2 b2 t2|b2]|] eqn:E2; try discriminate. injection H as <- <- <-.
      rewrite forallb_app, (IH _ _ _ _ _ _ W1 E1), (IH _ _ _ _ _ _ W2 E2). reflexivity.
    - apply andb_true_iff in W. destruct W as [W1 W2].
      destruct (grun n e1 s be) as [[s1 b1 t1|b1]|] eqn:E1; try discriminate.
      + injection H as <- <- <-. exact (IH _ _ _ _ _ _ W1 E1).
      + exact (IH _ _ _ _ _ _ W2 H).
    - destruct (grun n e s be) as [[s1 b1 t1|b1]|] eqn:E1; try discriminate.
      + destruct (grun n (Star e) s1 b1) as [[s2 b2 t2|b2]|] eqn:E2; try discriminate. injection H as <- <- <-.
        rewrite forallb_app, (IH _ _ _ _ _ _ W E1), (IH (Star e) _ _ _ _ _ W E2). reflexivity.
      + injection H as <- <- <-. reflexivity.
    - apply (IH (Seq e (Star e)) s be r be' t); [cbn [within]; rewrite W; reflexivity | exact H].
    - destruct (grun n e s be) as [[s1 b1 t1|b1]|] eqn:E1; try discriminate; injection H as <- <- <-; [exact (IH _ _ _ _ _ _ W E1) | reflexivity].
    - destruct (grun n e s be) as [[s1 b1 t1|b1]|] eqn:E1; try discriminate; injection H as <- <- <-; reflexivity.
    - destruct (grun n (grammar r0) s be) as [[s1 b1 t1|b1]|] eqn:E1; try discriminate. injection H as <- <- <-.
      pose proof (IH _ _ _ _ _ _ (pr_ok _ W) E1) as Q. unfold framed. destruct (nvars r0 =? 0); [exact Q|].
      cbn [forallb th_ok andb]. rewrite forallb_app, Q. reflexivity.
    - destruct (grun n (Rul r0) s be) as [[s1 b1 t1|b1]|] eqn:E1; try discriminate. injection H as <- <- <-.
      rewrite forallb_app, (IH (Rul r0) _ _ _ _ _ W E1). reflexivity.
    - injection H as <- <- <-. cbn. rewrite W. reflexivity.
    - injection H as <- <- <-. reflexivity.
    - injection H as <- <- <-. reflexivity.
  Qed.
End Structure.
(** rules that build neither strings nor signatures; rules of literals *)
Definition quiet_act (a : act) : bool := negb (sig_act a) && match a with AClear => false | _ => true end.
Definition quiet_rule (r : rule) : bool :=
  plain_rule r || match r with r_arg_name | r_arg_modifier | r_arg_type | r_hex | r_dec => true | _ => false end.
Lemma quiet_rule_ok r : quiet_rule r = true -> within quiet_act quiet_rule (grammar r) = true.
Proof. destruct r; vm_compute; congruence. Qed.
Definition lit_act (a : act) : bool := negb (sig_act a).
Definition lit_rule (r : rule) : bool :=
  quiet_rule r || match r with
  | r_immed | r_str1 | r_str2 | r_c1 | r_c2 | r_e2 | r_escn | r_escb | r_escf | r_escr | r_esct | r_escu | r_escU | r_escc => true
  | _ => false end.
Lemma lit_rule_ok r : lit_rule r = true -> within lit_act lit_rule (grammar r) = true.
Proof. destruct r; vm_compute; congruence. Qed.

(** what every match of [e] on [s] emits *)
Definition silent (e : gpe) (s : list Z) : Prop := forall n be r be' t, grun n e s be = Some (Match r be' t) -> forallb nosig t = true.
Definition tells (k : bool) (e : gpe) (s : list Z) : Prop := forall n be r be' t, grun n e s be = Some (Match r be' t) -> existsb clears t = k.
Lemma forallb_impl {A : Type} (f g : A -> bool) l : (forall x, f x = true -> g x = true) -> forallb f l = true -> forallb g l = true.
Proof. intros H. rewrite !forallb_forall. auto. Qed.
Lemma lit_silent e s : within lit_act lit_rule e = true -> silent e s.
Proof. intros W n be r be' t H. apply (forallb_impl (th_ok lit_act)); [|exact (within_ok _ _ lit_rule_ok _ _ _ _ _ _ _ W H)]. intros [| | |a x] Q; try reflexivity. exact Q. Qed.
Lemma quiet_silent e s : within quiet_act quiet_rule e = true -> silent e s.
Proof.
  intros W n be r be' t H. apply (forallb_impl (th_ok quiet_act)); [|exact (within_ok _ _ quiet_rule_ok _ _ _ _ _ _ _ W H)].
  intros [| | |a x] Q; try reflexivity. cbn in Q |- *. apply andb_true_iff in Q. apply Q.
Qed.
Lemma quiet_tells e s : within quiet_act quiet_rule e = true -> tells false e s.
Proof.
  intros W n be r be' t H. pose proof (within_ok _ _ quiet_rule_ok _ _ _ _ _ _ _ W H) as F.
  destruct (existsb clears t) eqn:E; [|reflexivity]. apply existsb_exists in E. destruct E as (x & I & C).
  rewrite forallb_forall in F. specialize (F x I). destruct x as [| | |a y]; try discriminate C. destruct a; discriminate C || discriminate F.
Qed.
Lemma one_result n m e s be be2 o o' : grun n e s be = Some o -> grun m e s be = Some o' -> be2 = be -> o = o'.
Proof. intros A B _. pose proof (run_le _ _ n (n + m) _ _ _ _ ltac:(lia) A). pose proof (run_le _ _ m (n + m) _ _ _ _ ltac:(lia) B). congruence. Qed.
Lemma fails_tells k e s : fails e s -> tells k e s.
Proof. intros F n be r be' t H. destruct (F be) as (m & b & E). pose proof (one_result _ _ _ _ _ be _ _ H E eq_refl). discriminate. Qed.
Lemma tells_alt k a b s : tells k a s -> tells k b s -> tells k (Alt a b) s.
Proof.
  intros A B n be r be' t H. destruct n as [|n]; [discriminate H|]. cbn [run] in H.
  destruct (grun n a s be) as [[s1 b1 t1|b1]|] eqn:E1; try discriminate.
  - injection H as <- <- <-. exact (A _ _ _ _ _ E1).
  - exact (B _ _ _ _ _ H).
Qed.
Lemma tells_rul k r s : tells k (grammar r) s -> tells k (Rul r) s.
Proof.
  intros A n be r' be' t H. destruct n as [|n]; [discriminate H|]. cbn [run] in H.
  destruct (grun n (grammar r) s be) as [[s1 b1 t1|b1]|] eqn:E1; try discriminate. injection H as <- <- <-.
  pose proof (A _ _ _ _ _ E1) as Q. unfold framed. destruct (nvars r =? 0); [exact Q|]. cbn [existsb clears orb]. rewrite existsb_app, Q. cbn. apply orb_false_r.
Qed.
Lemma tells_var k v r s : tells k (Rul r) s -> tells k (Var v r) s.
Proof.
  intros A n be r' be' t H. destruct n as [|n]; [discriminate H|]. cbn [run] in H.
  destruct (grun n (Rul r) s be) as [[s1 b1 t1|b1]|] eqn:E1; try discriminate. injection H as <- <- <-.
  rewrite existsb_app, (A _ _ _ _ _ E1). cbn. apply orb_false_r.
Qed.
(** a sequence whose second part is quiet *)
Lemma tells_seq1 k a b s : tells k a s -> within quiet_act quiet_rule b = true -> tells k (Seq a b) s.
Proof.
  intros A B n be r be' t H. destruct n as [|n]; [discriminate H|]. cbn [run] in H.
  destruct (grun n a s be) as [[s1 b1 t1|b1]|] eqn:E1; try discriminate.
  destruct (grun n b s1 b1) as [[s2 b2 t2|b2]|] eqn:E2; try discriminate. injection H as <- <- <-.
  rewrite existsb_app, (A _ _ _ _ _ E1), (quiet_tells b s1 B _ _ _ _ _ E2). apply orb_false_r.
Qed.
Lemma tells_clear a b s : tells true (Seq a (Seq (Act AClear) b)) s.
Proof.
  intros n be r be' t H. destruct n as [|n]; [discriminate H|]. cbn [run] in H.
  destruct (grun n a s be) as [[s1 b1 t1|b1]|] eqn:E1; try discriminate.
  destruct (grun n (Seq (Act AClear) b) s1 b1) as [[s2 b2 t2|b2]|] eqn:E2; try discriminate. injection H as <- <- <-.
  destruct n as [|n]; [discriminate E2|]. cbn [run] in E2. destruct n as [|n]; [discriminate E2|]. cbn [run] in E2.
  match type of E2 with match ?x with _ => _ end = _ => destruct x as [[s3 b3 t3|b3]|]; try discriminate end. injection E2 as <- <- <-.
  rewrite existsb_app. cbn. apply orb_true_r.
Qed.
Lemma silent_alt1 str dbl (I J : pst -> pst -> Prop) a b s r : does str dbl I a s r J -> silent a s -> silent (Alt a b) s.
Proof.
  intros D A n be r' be' t H. destruct n as [|n]; [discriminate H|]. cbn [run] in H.
  destruct (D be) as (m & b2 & t2 & E2 & _).
  destruct (grun n a s be) as [[s1 b1 t1|b1]|] eqn:E1; try discriminate.
  - injection H as <- <- <-. exact (A _ _ _ _ _ E1).
  - pose proof (one_result _ _ _ _ _ be _ _ E1 E2 eq_refl). discriminate.
Qed.
Lemma tells_alt1 str dbl (I J : pst -> pst -> Prop) k a b s r : does str dbl I a s r J -> tells k a s -> tells k (Alt a b) s.
Proof.
  intros D A n be r' be' t H. destruct n as [|n]; [discriminate H|]. cbn [run] in H.
  destruct (D be) as (m & b2 & t2 & E2 & _).
  destruct (grun n a s be) as [[s1 b1 t1|b1]|] eqn:E1; try discriminate.
  - injection H as <- <- <-. exact (A _ _ _ _ _ E1).
  - pose proof (one_result _ _ _ _ _ be _ _ E1 E2 eq_refl). discriminate.
Qed.
Lemma silent_rul r s : silent (grammar r) s -> silent (Rul r) s.
Proof.
  intros A n be r' be' t H. destruct n as [|n]; [discriminate H|]. cbn [run] in H.
  destruct (grun n (grammar r) s be) as [[s1 b1 t1|b1]|] eqn:E1; try discriminate. injection H as <- <- <-.
  pose proof (A _ _ _ _ _ E1) as Q. unfold framed. destruct (nvars r =? 0); [exact Q|]. cbn [forallb nosig andb]. rewrite forallb_app, Q. reflexivity.
Qed.
Lemma silent_var v r s : silent (Rul r) s -> silent (Var v r) s.
Proof.
  intros A n be r' be' t H. destruct n as [|n]; [discriminate H|]. cbn [run] in H.
  destruct (grun n (Rul r) s be) as [[s1 b1 t1|b1]|] eqn:E1; try discriminate. injection H as <- <- <-.
  rewrite forallb_app, (A _ _ _ _ _ E1). reflexivity.
Qed.

Section Sig.
  Context (str dbl : list Z -> Z).
  Notation skips := (skips str dbl).
  Notation does := (does str dbl).
  Notation yields := (yields str dbl).
  Notation exec := (SyntaxModel.exec str dbl).

  Lemma nosig_act a t st st' : sig_act a = false -> do_act str dbl a t st = XOk st' -> psig st' = psig st.
  Proof.
    destruct a; intros N H; try discriminate N; cbn [do_act] in H; unfold tup, push, word, escape, write in H;
    repeat match type of H with
    | match ?x with _ => _ end = _ => destruct x; try discriminate H
    end; injection H as <-; reflexivity.
  Qed.
  Lemma nosig_exec t : forall st st', forallb nosig t = true -> exec t st = XOk st' -> psig st' = psig st.
  Proof.
    induction t as [|x t IH]; intros st st' N H; cbn [SyntaxModel.exec] in H; [injection H as <-; reflexivity|].
    cbn [forallb] in N. apply andb_true_iff in N. destruct N as [N1 N2].
    destruct (do_thunk str dbl x st) as [st1| |] eqn:E; try discriminate H. rewrite (IH _ _ N2 H).
    destruct x as [n|n|k|a y]; cbn [do_thunk] in E; try (injection E as <-; reflexivity).
    apply (nosig_act a y); [|exact E]. cbn in N1. destruct (sig_act a); [discriminate N1 | reflexivity].
  Qed.

  (** a phrase is matched, adds [l] to the signature, and clears the string buffer iff [k] *)
  Definition gd (k : bool) (l : list sf) (I : pst -> pst -> Prop) (e : gpe) (s r : list Z) (J : pst -> pst -> Prop) : Prop :=
    forall be, exists n be' t, grun n e s be = Some (Match r be' t) /\ existsb clears t = k
      /\ forall b st, I b st -> exists st', exec t st = XOk st' /\ J b st' /\ psig st' = psig st ++ l.
  Lemma gd_does k I e s r J : does I e s r J -> silent e s -> tells k e s -> gd k [] I e s r J.
  Proof.
    intros D S T be. destruct (D be) as (n & be' & t & E & X). exists n, be', t. split; [exact E|]. split; [exact (T _ _ _ _ _ E)|].
    intros b st L. destruct (X b st L) as (st' & Y & Z). exists st'. split; [exact Y|]. split; [exact Z|].
    rewrite app_nil_r. exact (nosig_exec _ _ _ (S _ _ _ _ _ E) Y).
  Qed.
  Lemma gd_quiet I e s r J : does I e s r J -> within quiet_act quiet_rule e = true -> gd false [] I e s r J.
  Proof. intros D W. apply gd_does; [exact D | apply quiet_silent, W | apply quiet_tells, W]. Qed.
  Lemma gd_seq k1 k2 l1 l2 (I M J : pst -> pst -> Prop) a b s s1 s2 : gd k1 l1 I a s s1 M -> gd k2 l2 M b s1 s2 J ->
    gd (k1 || k2) (l1 ++ l2) I (Seq a b) s s2 J.
  Proof.
    intros H1 H2 be. destruct (H1 be) as (n & be1 & t1 & E1 & C1 & X1). destruct (H2 be1) as (m & be2 & t2 & E2 & C2 & X2).
    exists (S (Nat.max n m)), be2, (t1 ++ t2). split; [|split].
    - cbn [run]. rewrite (run_le _ _ n _ _ _ _ _ (Nat.le_max_l n m) E1).
      rewrite (run_le _ _ m _ _ _ _ _ (Nat.le_max_r n m) E2). reflexivity.
    - rewrite existsb_app, C1, C2. reflexivity.
    - intros g st L. destruct (X1 g st L) as (st1 & Y1 & Z1 & Q1). destruct (X2 g st1 Z1) as (st2 & Y2 & Z2 & Q2).
      exists st2. split; [rewrite (exec_app_ok _ _ _ _ _ _ Y1); exact Y2|]. split; [exact Z2|]. rewrite Q2, Q1, app_assoc. reflexivity.
  Qed.
  Lemma gd_star1 k1 k2 l1 l2 (I M J : pst -> pst -> Prop) a s s1 s2 : gd k1 l1 I a s s1 M -> gd k2 l2 M (Star a) s1 s2 J ->
    gd (k1 || k2) (l1 ++ l2) I (Star a) s s2 J.
  Proof.
    intros H1 H2 be. destruct (H1 be) as (n & be1 & t1 & E1 & C1 & X1). destruct (H2 be1) as (m & be2 & t2 & E2 & C2 & X2).
    exists (S (Nat.max n m)), be2, (t1 ++ t2). split; [|split].
    - cbn [run]. rewrite (run_le _ _ n _ _ _ _ _ (Nat.le_max_l n m) E1).
      rewrite (run_le _ _ m _ _ _ _ _ (Nat.le_max_r n m) E2). reflexivity.
    - rewrite existsb_app, C1, C2. reflexivity.
    - intros g st L. destruct (X1 g st L) as (st1 & Y1 & Z1 & Q1). destruct (X2 g st1 Z1) as (st2 & Y2 & Z2 & Q2).
      exists st2. split; [rewrite (exec_app_ok _ _ _ _ _ _ Y1); exact Y2|]. split; [exact Z2|]. rewrite Q2, Q1, app_assoc. reflexivity.
  Qed.
  Lemma gd_star0 I a s : fails a s -> gd false [] I (Star a) s s I.
  Proof.
    intros H be. destruct (H be) as (n & be1 & E1). exists (S n), be1, []. split; [cbn [run]; rewrite E1; reflexivity|]. split; [reflexivity|].
    intros b st L. exists st. rewrite app_nil_r. auto.
  Qed.
  Lemma gd_opt0 I a s : fails a s -> gd false [] I (Opt a) s s I.
  Proof.
    intros H be. destruct (H be) as (n & be1 & E1). exists (S n), be1, []. split; [cbn [run]; rewrite E1; reflexivity|]. split; [reflexivity|].
    intros b st L. exists st. rewrite app_nil_r. auto.
  Qed.
  Lemma gd_opt1 k l I a s r J : gd k l I a s r J -> gd k l I (Opt a) s r J.
  Proof. intros H be. destruct (H be) as (n & be1 & t & E & X). exists (S n), be1, t. split; [cbn [run]; rewrite E; reflexivity | exact X]. Qed.
  Lemma gd_plus k l I a s r J : gd k l I (Seq a (Star a)) s r J -> gd k l I (Plus a) s r J.
  Proof. intros H be. destruct (H be) as (n & be1 & t & E & X). exists (S n), be1, t. split; [exact E | exact X]. Qed.
  Lemma gd_alt1 k l I a b s r J : gd k l I a s r J -> gd k l I (Alt a b) s r J.
  Proof. intros H be. destruct (H be) as (n & be1 & t & E & X). exists (S n), be1, t. split; [cbn [run]; rewrite E; reflexivity | exact X]. Qed.
  Lemma gd_alt2 k l I a b s r J : fails a s -> gd k l I b s r J -> gd k l I (Alt a b) s r J.
  Proof.
    intros H1 H2 be. destruct (H1 be) as (n & be1 & E1). destruct (H2 be1) as (m & be2 & t & E2 & X).
    exists (S (Nat.max n m)), be2, t. split; [|exact X].
    cbn [run]. rewrite (run_le _ _ n _ _ _ _ _ (Nat.le_max_l n m) E1).
    rewrite (run_le _ _ m _ _ _ _ _ (Nat.le_max_r n m) E2). reflexivity.
  Qed.
  Lemma gd_rul0 k l I r s s' J : nvars r = 0 -> gd k l I (grammar r) s s' J -> gd k l I (Rul r) s s' J.
  Proof.
    intros N H be. destruct (H be) as (n & be1 & t & E & X). exists (S n), be1, t. split; [|exact X].
    cbn [run]. rewrite E. unfold framed. rewrite N. reflexivity.
  Qed.
  Lemma gd_act l (I J : pst -> pst -> Prop) a s : quiet_act a = true \/ sig_act a = true ->
    (forall t b st, I b st -> exists st', do_act str dbl a t st = XOk st' /\ J b st' /\ psig st' = psig st ++ l) -> gd false l I (Act a) s s J.
  Proof.
    intros Q H be. exists 1%nat, be, [TAct a (text_of be)]. split; [reflexivity|]. split; [destruct a; try reflexivity; destruct Q; discriminate|].
    intros b st L. destruct (H (text_of be) b st L) as (st' & V & U). exists st'. split; [|exact U].
    cbn [SyntaxModel.exec do_thunk]. rewrite V. reflexivity.
  Qed.
  Lemma gd_conseq k l I e s r J k' l' : gd k l I e s r J -> k' = k -> l' = l -> gd k' l' I e s r J.
  Proof. intros H -> ->. exact H. Qed.
  Lemma gd_skips I e s r : skips e s r -> within quiet_act quiet_rule e = true -> gd false [] I e s r I.
  Proof. intros S W. apply gd_quiet; [apply skips_does, S | exact W]. Qed.

  (** outside the rule for a parameter: the stack is as before *)
  Definition at0 (b st : pst) : Prop := True.
  Lemma gd_rul k l r s s' : gd k l (fr (nvars r) (fun _ => True)) (grammar r) s s' (fr (nvars r) (fun _ => True)) ->
    gd k l at0 (Rul r) s s' at0.
  Proof.
    intros H be. destruct (H be) as (n & be1 & t1 & E & C & X). exists (S n), be1, (framed nvars r t1).
    split; [cbn [run]; rewrite E; reflexivity|]. unfold framed.
    split; [destruct (nvars r =? 0); [exact C|]; cbn [existsb clears orb]; rewrite existsb_app, C; apply orb_false_r|].
    intros b st _. destruct (nvars r =? 0) eqn:N.
    - apply Z.eqb_eq in N. rewrite N in X. destruct (X st st) as (st' & Y & _ & Z); [repeat split; lia|]. exists st'. repeat split; assumption.
    - destruct (X st (set_top (top st + nvars r) st)) as (m & Y & _ & Z3); [repeat split|].
      exists (set_top (top m - nvars r) m). split.
      + cbn [SyntaxModel.exec do_thunk]. rewrite (exec_app_ok _ _ _ _ _ _ Y). reflexivity.
      + split; [exact Logic.I | exact Z3].
  Qed.

  (** ** Names, types, modifiers *)
  Lemma y_arg_name w g r : path_ident w = true -> spaces g -> stops (g ++ r) -> heads no_gap r = true ->
    yields (Rul r_arg_name) (w ++ g ++ r) r (SVal (str w)).
  Proof.
    intros W G H K. apply yields_rul0; [reflexivity|]. cbn [grammar].
    destruct w as [|c u]; [discriminate W|]. cbn [path_ident] in W. apply andb_true_iff in W. destruct W as [U1 U2].
    apply bdoes_does. intros be. eexists. eapply bdoes_seq; [apply bdoes_bg|].
    cbn [app]. eapply bdoes_seq; [apply bdoes_skips, skips_utff, U1|].
    eapply bdoes_seq; [apply bdoes_skips, skips_utfws; [exact U2 | apply stop_word, H]|].
    eapply bdoes_seq; [apply bdoes_en|].
    eapply bdoes_seq; [apply bdoes_skips, skips_sp; [exact G | exact K]|].
    apply (act_strn _ _ _ (c :: u) (g ++ r)). reflexivity.
  Qed.
  Lemma act_char be c r s : be = (c :: r, r) -> bdoes str dbl be is (Act AChar) s s (out 0 (SVal (PN_NUM c))) be.
  Proof.
    intros ->. apply bdoes_act. intros b st <-. change (c :: r) with ([c] ++ r). rewrite text_app. eexists. split; [reflexivity|]. repeat split; cbn; lia.
  Qed.
  Lemma y_arg_type c g r : In c type_letters -> spaces g -> heads no_gap r = true ->
    yields (Rul r_arg_type) (c :: g ++ r) r (SVal (PN_NUM c)).
  Proof.
    intros C G K. apply yields_rul0; [reflexivity|]. cbn [grammar].
    apply bdoes_does. intros be. eexists. eapply bdoes_seq; [apply bdoes_bg|].
    eapply bdoes_seq; [apply bdoes_skips, skips_cls; apply existsb_exists; exists c; split; [exact C | apply Z.eqb_refl]|].
    eapply bdoes_seq; [apply bdoes_en|].
    eapply bdoes_seq; [apply bdoes_skips, skips_sp; [exact G | exact K]|].
    apply (act_char _ c (g ++ r)). reflexivity.
  Qed.
  Lemma y_arg_modifier c r : In c modifiers -> yields (Rul r_arg_modifier) (c :: r) r (SVal (PN_NUM c)).
  Proof.
    intros C. apply yields_rul0; [reflexivity|]. cbn [grammar].
    apply bdoes_does. intros be. eexists. eapply bdoes_seq; [apply bdoes_bg|].
    eapply bdoes_seq.
    { apply bdoes_skips. destruct C as [<-|[<-|[<-|[]]]].
      - apply skips_alt1, skips_chr.
      - apply skips_alt2; [apply misses_chr; lia|]. apply skips_alt1, skips_chr.
      - do 2 (apply skips_alt2; [apply misses_chr; lia|]). apply skips_chr. }
    eapply bdoes_seq; [apply bdoes_en|]. apply (act_char _ c r). reflexivity.
  Qed.

  (** ** Default values *)
  Hypothesis Nn : forall l, str l <> PN_NIL.
  Definition lit_of (q : bool) (d : Z) (w : list Z) : Prop :=
    if q then exists l, forallb quotable l = true /\ d = str l /\ w = quoted l
    else (d = PN_NIL /\ w = [110; 105; 108]) \/ (d = PN_TRUE /\ w = [116; 114; 117; 101])
         \/ (d = PN_FALSE /\ w = [102; 97; 108; 115; 101])
         \/ (exists n, 0 <= n < two62 /\ d = PN_NUM n /\ w = sprintf_ld n).
  Lemma lit_of_word q d w : lit_of q d w -> lit_word str d w.
  Proof. unfold lit_of, lit_word. destruct q; intros H; [do 4 right; exact H|]. tauto. Qed.
  Lemma lit_of_head q d w : lit_of q d w -> exists c u, w = c :: u /\ c <> 34 /\ (q = false -> c <> 39) /\ no_nl c = true.
  Proof.
    unfold lit_of. destruct q.
    - intros (l & L & -> & ->). exists 39, (escaped l ++ [39]). repeat split; try lia; discriminate.
    - intros [(_ & ->)|[(_ & ->)|[(_ & ->)|(n & N & _ & ->)]]]; try (eexists; eexists; repeat split; lia).
      destruct (ld_shape n N) as [(-> & ->)|(c & u & -> & C & _)]; (eexists; eexists; repeat split; try lia); unfold no_nl, no_gap, blank; lia.
  Qed.
  Lemma lit_tells q d w s : lit_of q d w -> tells q (Rul r_immed) (w ++ s).
  Proof.
    intros L. apply tells_rul. cbn [grammar]. destruct (lit_of_head _ _ _ L) as (c & u & -> & C1 & C2 & _). cbn [app]. destruct q.
    - destruct L as (l & _ & _ & E). injection E as -> ->.
      do 5 (apply tells_alt; [apply fails_tells; pf [39]|]). apply tells_alt; [|apply fails_tells; pf [39]].
      apply tells_rul. cbn [grammar]. apply tells_clear.
    - do 5 (apply tells_alt; [apply quiet_tells; reflexivity|]). apply tells_alt; apply fails_tells, fails_rul; cbn [grammar]; apply fails_seq1, misses_fails, misses_rul; cbn [grammar].
      + apply misses_chr. auto.
      + apply misses_chr. auto.
  Qed.
  (** after a parameter: a comma, a bar, a full stop, or the end *)
  Definition follow (c : Z) : bool := (c =? 44) || (c =? 124) || (c =? 46).
  Definition follows (r : list Z) : Prop := heads follow r = true /\ no_frac r.
  Lemma follow_gap r : follows r -> heads no_gap r = true.
  Proof. intros [H _]. eapply heads_imp; [exact H|]. intros c. unfold follow, no_gap, blank. lia. Qed.
  Lemma follow_stops r : follows r -> stops r.
  Proof. intros [H _]. eapply heads_imp; [exact H|]. intros c. unfold follow, word_char, name_char, letter, digit, between. lia. Qed.
  Lemma stops_gap g r : spaces g -> stops r -> stops (g ++ r).
  Proof.
    intros G R. destruct g as [|c g]; [exact R|]. unfold spaces in G. cbn [forallb] in G. apply andb_true_iff in G. destruct G as [G _].
    unfold stops. cbn [app heads]. unfold blank in G. unfold word_char, name_char, letter, digit, between. lia.
  Qed.
  Lemma g_default q d w g r (K K' : (Z -> sf) -> Prop) : lit_of q d w -> spaces g -> follows r -> bind_to (-1) (SSrc (ValOf d)) K K' ->
    gd q [] (fr 4 K) (Var (-1) r_value) (w ++ g ++ r) r (fr 4 K').
  Proof.
    intros L G F B. pose proof (lit_of_word _ _ _ L) as W.
    assert (St : stops (g ++ r)) by (apply stops_gap; [exact G | apply follow_stops, F]).
    assert (Q : heads (fun c => negb (c =? 39)) r = true) by (eapply heads_imp; [apply F|]; intros c; unfold follow; lia).
    assert (D : does (fr 2 (fun _ => True)) (Var (-2) r_immed >> sp_ >> Act (AMk VALUE (-2))) (w ++ g ++ r) r (fun b st => True)).
    { eapply does_seq; [eapply does_var' with (K' := fun v0 => v0 (-2) = sf_of d); [|lia|lia|intros v1 v2 _ E _; exact E]|].
      - apply y_immed; [exact Nn | exact W | intros; exact St | |].
        + destruct g as [|c g]; [apply F|]. unfold spaces in G. cbn [forallb] in G. apply andb_true_iff in G. destruct G as [G _]. unfold blank in G. cbn [app no_frac].
          destruct c as [|c|c]; try exact Logic.I. do 6 (destruct c as [c|c|]; try exact Logic.I). discriminate G.
        + destruct g as [|c g]; [exact Q|]. unfold spaces in G. cbn [forallb] in G. apply andb_true_iff in G. destruct G as [G _]. unfold blank in G. cbn [app heads]. lia.
      - eapply skips_does_seq; [apply skips_sp; [exact G | apply follow_gap, F]|].
        apply does_act. intros t b st _. eexists. split; [reflexivity | exact Logic.I]. }
    apply gd_does.
    - eapply does_var'; [|lia|lia|exact B]. apply y_value_lit; try assumption; [intros; exact St | apply F | apply follow_gap, F].
    - apply silent_var, silent_rul. cbn [grammar]. eapply silent_alt1; [exact D|]. apply lit_silent. reflexivity.
    - apply tells_var, tells_rul. cbn [grammar]. eapply tells_alt1; [exact D|]. apply tells_seq1; [|reflexivity]. apply tells_var. eapply lit_tells, L.
  Qed.

  (** ** One parameter *)
  Lemma nameq c t : letter c = true -> fails (Rul r_arg_modifier) (c :: t).
  Proof. intros C. lf. Qed.
  Lemma no_assign r : heads (fun c => negb (c =? 61)) r = true -> fails (Rul r_assign) r.
  Proof.
    intros H. apply fails_rul. cbn [grammar]. apply fails_seq1, misses_fails. destruct r as [|c r]; [apply misses_chr_nil|]. apply misses_chr. cbn [heads] in H. lia.
  Qed.
  Lemma no_defassign r : heads (fun c => negb (c =? 58)) r = true -> fails (Rul r_defassign) r.
  Proof.
    intros H. apply fails_rul. cbn [grammar]. apply fails_seq1, misses_fails. destruct r as [|c r]; [apply misses_str_nil|]. apply misses_str. cbn [heads] in H. lia.
  Qed.
  (** a name, and what follows it *)
  Lemma p_name n a s : pname str n a -> stops s -> heads no_gap s = true ->
    (exists c u, a = c :: u /\ letter c = true) /\ yields (Rul r_arg_name) (a ++ s) s (SVal n).
  Proof.
    intros (w & W & <- & g & G & ->) S K. split.
    - destruct w as [|c u]; [discriminate W|]. cbn [path_ident] in W. apply andb_true_iff in W. exists c, (u ++ g). split; [reflexivity | apply W].
    - rewrite <- app_assoc. apply y_arg_name; try assumption. apply stops_gap; assumption.
  Qed.
  Lemma g_name (K K' : (Z -> sf) -> Prop) n a s : pname str n a -> stops s -> heads no_gap s = true ->
    bind_to (-3) (SVal n) K K' -> gd false [] (fr 4 K) (Var (-3) r_arg_name) (a ++ s) s (fr 4 K').
  Proof.
    intros P S G B. apply gd_quiet; [|reflexivity]. eapply does_var'; [exact (proj2 (p_name n a s P S G)) | lia | lia | exact B].
  Qed.
  Lemma f_name n a s e : pname str n a -> stops s -> heads no_gap s = true -> fails e s -> fails (Var (-3) r_arg_name >> e) (a ++ s).
  Proof.
    intros P S G F. eapply (fails_seq2 str dbl) with (I := fr 4 (fun _ => True)); [|exact F].
    eapply does_var' with (K' := fun _ => True); [exact (proj2 (p_name n a s P S G)) | lia | lia | intros ? ? ? ? ?; exact Logic.I].
  Qed.
  Lemma g_assign I b s : tokn [61] b -> heads no_nl s = true -> gd false [] I (Rul r_assign) (b ++ s) s I.
  Proof.
    intros (g & G & ->) N. apply gd_skips; [|reflexivity]. apply skips_rul; [reflexivity|]. cbn [grammar app].
    eapply skips_seq; [apply skips_chr | apply skips_nl; assumption].
  Qed.
  Lemma g_defassign I b s : tokn [58; 61] b -> heads no_nl s = true -> gd false [] I (Rul r_defassign) (b ++ s) s I.
  Proof.
    intros (g & G & ->) N. apply gd_skips; [|reflexivity]. apply skips_rul; [reflexivity|]. cbn [grammar app].
    eapply skips_seq; [apply (skips_str str dbl [58; 61]) | apply skips_nl; assumption].
  Qed.
  Lemma g_type (K K' : (Z -> sf) -> Prop) t c r : ptype t c -> follows r -> bind_to (-2) (SVal t) K K' ->
    gd false [] (fr 4 K) (Var (-2) r_arg_type) (c ++ r) r (fr 4 K').
  Proof.
    intros (x & X & -> & g & G & ->) F B. apply gd_quiet; [|reflexivity]. cbn [app].
    eapply does_var'; [apply y_arg_type; [exact X | exact G | apply follow_gap, F] | lia | lia | exact B].
  Qed.
  Lemma type_head t c r : ptype t c -> heads no_nl (c ++ r) = true.
  Proof.
    intros (x & X & _ & g & _ & ->). cbn [app heads].
    cbn in X; repeat (destruct X as [<-|X]; [reflexivity|]); contradiction.
  Qed.
  Definition sfw (v : Z) : sf := sf_of v.
  Lemma sfw_name n a : pname str n a -> sfw n = SVal n.
  Proof. intros (w & _ & <- & _). unfold sfw, sf_of. specialize (Nn w). replace (str w =? PN_NIL) with false by lia. reflexivity. Qed.
  Lemma sfw_num c : sfw (PN_NUM c) = SVal (PN_NUM c).
  Proof.
    unfold sfw, sf_of. replace (PN_NUM c =? PN_NIL) with false; [reflexivity|].
    symmetry. apply Z.eqb_neq. intros E. pose proof (PN_NUM_is_int c) as P. rewrite E in P. discriminate P.
  Qed.
  Lemma sfw_type t c : ptype t c -> sfw t = SVal t.
  Proof. intros (x & _ & -> & _). apply sfw_num. Qed.
  Ltac ap := match goal with |- context [(?a ++ ?b) ++ ?c] => rewrite <- (app_assoc a b c) end.
  Lemma follow61 r : follows r -> heads (fun c => negb (c =? 61)) r = true /\ heads (fun c => negb (c =? 58)) r = true.
  Proof. intros [H _]. split; (eapply heads_imp; [exact H|]); intros c; unfold follow; lia. Qed.
  Lemma tok_stops w c u r : w = c :: u -> word_char c = false -> no_gap c = true -> forall b, (exists g, b = w ++ g) -> stops (b ++ r) /\ heads no_gap (b ++ r) = true.
  Proof. intros -> C G b (g & ->). split; [unfold stops; cbn [app heads]; rewrite C; reflexivity | exact G]. Qed.
  Lemma assign_head b r : tokn [61] b -> stops (b ++ r) /\ heads no_gap (b ++ r) = true /\ heads (fun c => negb (c =? 58)) (b ++ r) = true.
  Proof. intros (g & G & ->). repeat split. Qed.
  Lemma defassign_head b r : tokn [58; 61] b -> stops (b ++ r) /\ heads no_gap (b ++ r) = true /\ heads (fun c => negb (c =? 61)) (b ++ r) = true.
  Proof. intros (g & G & ->). repeat split. Qed.

  Lemma g_arg q i s r : arg str q i s -> follows r -> gd q (map sfw (enc1 i)) at0 (Rul r_arg) (s ++ r) r at0.
  Proof.
    intros A F. apply gd_rul. cbn [grammar nvars].
    pose proof (follow_gap _ F) as Fg. pose proof (follow_stops _ F) as Fs. destruct (follow61 _ F) as [F61 F58].
    assert (NM : forall n a s, pname str n a -> fails (Var (-4) r_arg_modifier >> Var (-3) r_arg_name >> Rul r_assign >> Var (-2) r_arg_type >> Act (ATpl3 (-3) (-2) (-4))) (a ++ s)
                       /\ fails (Var (-4) r_arg_modifier >> Var (-3) r_arg_name >> Act (ATpl3n (-3) (-4))) (a ++ s)).
    { intros n a s0 (w & W & _ & g & _ & ->). destruct w as [|c u]; [discriminate W|]. cbn [path_ident] in W. apply andb_true_iff in W. destruct W as [W _].
      split; apply fails_seq1, fails_var; cbn [app]; apply nameq, W. }
    assert (MD : forall m a s, modifier m a -> does (fr 4 (fun _ => True)) (Var (-4) r_arg_modifier) (a ++ s) s (fr 4 (fun v => v (-4) = SVal m)) /\ sfw m = SVal m).
    { intros m a s0 (c & C & -> & ->). split; [|apply sfw_num]. cbn [app].
      eapply does_var'; [apply y_arg_modifier, C | lia | lia | intros v1 v2 _ E _; exact E]. }
    destruct A as [n s P|n t a b c P E T|q n d a b c P E D|n m a b M P|n t m a b c d M P E T|s P].
    - destruct (NM _ _ r P) as [N1 N2]. apply gd_alt2; [exact N1|]. apply gd_alt2; [exact N2|].
      apply gd_alt2; [apply (f_name n); try assumption; apply fails_seq1, no_assign, F61|].
      apply gd_alt2; [apply (f_name n); try assumption; apply fails_seq1, no_defassign, F58|].
      apply gd_alt1. cbn [enc1 map]. rewrite (sfw_name _ _ P).
      eapply gd_conseq; [eapply gd_seq; [apply (g_name (fun _ => True) (fun v => v (-3) = SVal n) n); try eassumption; intros v1 v2 _ X _; exact X|] | reflexivity | reflexivity].
      apply gd_act; [right; reflexivity|]. intros t b st (L1 & L2 & L3). eexists. split; [reflexivity|]. rewrite L3. repeat split; assumption.
    - do 2 ap. destruct (NM _ _ (b ++ c ++ r) P) as [N1 N2]. apply gd_alt2; [exact N1|]. apply gd_alt2; [exact N2|]. apply gd_alt1.
      destruct (assign_head b (c ++ r) E) as (S1 & S2 & S3).
      cbn [enc1 map]. rewrite (sfw_name _ _ P), (sfw_type _ _ T).
      eapply gd_conseq; [eapply gd_seq; [apply (g_name (fun _ => True) (fun v => v (-3) = SVal n) n); try eassumption; intros v1 v2 _ X _; exact X|] | reflexivity | reflexivity].
      eapply gd_conseq; [eapply gd_seq; [apply g_assign; [exact E | eapply type_head, T]|] | reflexivity | reflexivity].
      eapply gd_conseq; [eapply gd_seq; [eapply (g_type _ (fun v => v (-3) = SVal n /\ v (-2) = SVal t)); [exact T | exact F |]|] | reflexivity | reflexivity].
      { intros v1 v2 X1 X2 X3. rewrite X3 by lia. auto. }
      apply gd_act; [right; reflexivity|]. intros x y st (L1 & L2 & L3 & L4). eexists. split; [reflexivity|]. rewrite L3, L4. repeat split; assumption.
    - do 2 ap. destruct (NM _ _ (b ++ c ++ r) P) as [N1 N2]. apply gd_alt2; [exact N1|]. apply gd_alt2; [exact N2|].
      destruct (defassign_head b (c ++ r) E) as (S1 & S2 & S3).
      apply gd_alt2; [apply (f_name n); try assumption; apply fails_seq1, no_assign, S3|]. apply gd_alt1.
      destruct D as (w & (g & G & ->) & L). rewrite <- app_assoc in *. change (lit_of q d w) in L.
      destruct (lit_of_head _ _ _ L) as (c0 & u0 & W0 & _ & _ & H0).
      cbn [enc1 map]. rewrite (sfw_name _ _ P).
      eapply gd_conseq; [eapply gd_seq; [apply (g_name (fun _ => True) (fun v => v (-3) = SVal n) n); try eassumption; intros v1 v2 _ X _; exact X|] | | reflexivity].
      { eapply gd_conseq; [eapply gd_seq; [apply g_defassign; [exact E | rewrite W0; exact H0]|] | | reflexivity].
        { eapply gd_conseq; [eapply gd_seq; [eapply (g_default q d w g r _ (fun v => v (-3) = SVal n /\ v (-1) = SSrc (ValOf d))); try assumption|] | | reflexivity].
          { intros v1 v2 X1 X2 X3. rewrite X3 by lia. auto. }
          { apply gd_act with (l := [SVal n; SVal (PN_NUM 58); sfw d]) (J := fr 4 (fun _ => True)); [right; reflexivity|]. intros x y st (L1 & L2 & L3 & L4). eexists. cbn [do_act]. rewrite L4. split; [reflexivity|]. rewrite L3. repeat split; assumption. }
          reflexivity. }
        cbn [orb]. reflexivity. }
      cbn [orb]. rewrite orb_false_r. reflexivity.
    - ap. destruct (MD m a (b ++ r) M) as [MD1 MD2].
      apply gd_alt2.
      { eapply (fails_seq2 str dbl); [exact MD1|]. apply (f_name n); try assumption. apply fails_seq1, no_assign, F61. }
      apply gd_alt1. cbn [enc1 map]. rewrite (sfw_name _ _ P), MD2. change (sfw PN_NIL) with SNil.
      eapply gd_conseq; [eapply gd_seq; [apply gd_quiet; [exact MD1 | reflexivity]|] | reflexivity | reflexivity].
      eapply gd_conseq; [eapply gd_seq; [apply (g_name _ (fun v => v (-4) = SVal m /\ v (-3) = SVal n) n); try eassumption; intros v1 v2 X1 X2 X3; rewrite X3 by lia; auto|] | reflexivity | reflexivity].
      apply gd_act; [right; reflexivity|]. intros t y st (L1 & L2 & L3 & L4). eexists. split; [reflexivity|]. rewrite L3, L4. repeat split; assumption.
    - do 3 ap. destruct (MD m a (b ++ c ++ d ++ r) M) as [MD1 MD2]. apply gd_alt1.
      destruct (assign_head c (d ++ r) E) as (S1 & S2 & S3).
      cbn [enc1 map]. rewrite (sfw_name _ _ P), MD2, (sfw_type _ _ T).
      eapply gd_conseq; [eapply gd_seq; [apply gd_quiet; [exact MD1 | reflexivity]|] | reflexivity | reflexivity].
      eapply gd_conseq; [eapply gd_seq; [apply (g_name _ (fun v => v (-4) = SVal m /\ v (-3) = SVal n) n); try eassumption; intros v1 v2 X1 X2 X3; rewrite X3 by lia; auto|] | reflexivity | reflexivity].
      eapply gd_conseq; [eapply gd_seq; [apply g_assign; [exact E | eapply type_head, T]|] | reflexivity | reflexivity].
      eapply gd_conseq; [eapply gd_seq; [eapply (g_type _ (fun v => v (-4) = SVal m /\ v (-3) = SVal n /\ v (-2) = SVal t)); [exact T | exact F |]|] | reflexivity | reflexivity].
      { intros v1 v2 (X1 & X1') X2 X3. rewrite !X3 by lia. auto. }
      apply gd_act; [right; reflexivity|]. intros x y st (L1 & L2 & L3 & L4 & L5). eexists. split; [reflexivity|]. rewrite L3, L4, L5. repeat split; assumption.
    - destruct P as (g & G & ->). cbn [app]. do 5 (apply gd_alt2; [pf [46]|]).
      cbn [enc1 map]. rewrite sfw_num. apply gd_rul0; [reflexivity|]. cbn [grammar].
      eapply gd_conseq; [eapply gd_seq; [apply gd_skips; [apply (skips_str str dbl [46; 46; 46]) | reflexivity]|] | reflexivity | reflexivity].
      eapply gd_conseq; [eapply gd_seq; [apply gd_skips; [apply skips_sp; assumption | reflexivity]|] | reflexivity | reflexivity].
      apply gd_act; [right; reflexivity|]. intros x y st (L1 & L2 & L3). eexists. split; [reflexivity|]. repeat split; assumption.
  Qed.

  (** ** Sets of parameters *)
  Inductive set_tail : bool -> list item -> lang :=
  | st_nil : set_tail false [] []
  | st_cons q i a b q' l c : tok [44] b -> arg str q i a -> set_tail q' l c -> set_tail (q || q') (i :: l) (b ++ a ++ c).
  Lemma set_split q l s : arg_set str q l s -> exists q1 i q2 l2 s1 s2, l = i :: l2 /\ s = s1 ++ s2 /\ q = q1 || q2 /\ arg str q1 i s1 /\ set_tail q2 l2 s2.
  Proof.
    induction 1 as [q i s A|q i a b q' l c A B C (q1 & j & q2 & l2 & s1 & s2 & -> & -> & -> & A1 & A2)].
    - exists q, i, false, [], s, []. rewrite app_nil_r, orb_false_r. repeat split; [exact A | constructor].
    - exists q, i, (q1 || q2), (j :: l2), a, (b ++ s1 ++ s2). repeat split; [exact A | constructor; assumption].
  Qed.
  Lemma tail_follows q l s r : set_tail q l s -> follows r -> follows (s ++ r).
  Proof. intros T F. destruct T as [|q i a b q' l c (g & G & ->) A T]; [exact F|]. split; [reflexivity | exact Logic.I]. Qed.
  (** the first character of a parameter *)
  Definition starter (c : Z) : bool := letter c || (c =? 45) || (c =? 92) || (c =? 42) || (c =? 46) || (c =? 124).
  Lemma pname_start n a : pname str n a -> exists c u, a = c :: u /\ starter c = true.
  Proof.
    intros (w & W & _ & g & _ & ->). destruct w as [|c u]; [discriminate W|]. cbn [path_ident] in W. apply andb_true_iff in W.
    exists c, (u ++ g). split; [reflexivity|]. unfold starter. destruct W as [-> _]. reflexivity.
  Qed.
  Lemma arg_start q i s : arg str q i s -> exists c u, s = c :: u /\ starter c = true.
  Proof.
    assert (M : forall m a b, modifier m a -> exists c u, a ++ b = c :: u /\ starter c = true).
    { intros m a b (c & C & _ & ->). exists c, b. split; [reflexivity|]. destruct C as [<-|[<-|[<-|[]]]]; reflexivity. }
    assert (N : forall n a b, pname str n a -> exists c u, a ++ b = c :: u /\ starter c = true).
    { intros n a b P. destruct (pname_start _ _ P) as (c & u & -> & C). exists c, (u ++ b). auto. }
    intros [n a P|n t a b c P E T|k n d a b c P E D|n m a b P Q|n t m a b c d P Q E T|a P]; eauto using pname_start.
    destruct P as (g & _ & ->). eexists. eexists. split; reflexivity.
  Qed.
  Lemma starter_gap c : starter c = true -> no_gap c = true /\ digit c = false.
  Proof. unfold starter, letter, between, no_gap, blank, digit, between. lia. Qed.
  Lemma set_start q l s : arg_set str q l s -> exists c u, s = c :: u /\ starter c = true.
  Proof.
    intros S. destruct (set_split _ _ _ S) as (q1 & i & q2 & l2 & s1 & s2 & _ & -> & _ & A & _).
    destruct (arg_start _ _ _ A) as (c & u & -> & C). exists c, (u ++ s2). auto.
  Qed.
  Lemma list_start q l s : arg_list str q l s -> exists c u, s = c :: u /\ starter c = true.
  Proof.
    intros [q' l' s' S|q1 l1 a b q2 m c S B C|q1 m b c (g & _ & ->) C].
    - exact (set_start _ _ _ S).
    - destruct (set_start _ _ _ S) as (x & u & -> & X). exists x, (u ++ b ++ c). auto.
    - exists 124, (g ++ c). auto.
  Qed.
  Lemma g_set q l s r : arg_set str q l s -> follows r -> heads (fun c => negb (c =? 44)) r = true ->
    gd q (map sfw (enc l)) at0 (Rul r_arg_set) (s ++ r) r at0.
  Proof.
    intros S F H. destruct (set_split _ _ _ S) as (q1 & i & q2 & l2 & s1 & s2 & -> & -> & -> & A & T). clear S.
    apply gd_rul0; [reflexivity|]. cbn [grammar]. rewrite <- app_assoc.
    unfold enc. cbn [map concat]. rewrite map_app. eapply gd_seq; [apply g_arg; [exact A | eapply tail_follows; eassumption]|].
    fold (enc l2). clear A. induction T as [|q i0 a b q' l c (g & G & ->) A T IH].
    - cbn [app]. apply gd_star0. apply fails_seq1, misses_fails, misses_comma, H.
    - pose proof (tail_follows _ _ _ _ T F) as F'. destruct (arg_start _ _ _ A) as (x & u & -> & X). destruct (starter_gap _ X) as [X1 X2].
      repeat rewrite <- app_assoc. unfold enc. cbn [map concat]. rewrite map_app. eapply gd_star1; [|exact IH].
      cbn [app]. eapply gd_conseq; [eapply gd_seq; [apply gd_skips; [apply skips_rul; [reflexivity | apply skips_chr] | reflexivity]|] | reflexivity | reflexivity].
      eapply gd_conseq; [eapply gd_seq; [apply gd_skips; [apply skips_sp; [exact G | exact X1] | reflexivity]|] | reflexivity | reflexivity].
      apply (g_arg q i0 (x :: u)); assumption.
  Qed.
  (** ** Lists *)
  Lemma bar_follows b c : tok [124] b -> follows (b ++ c) /\ heads (fun c => negb (c =? 44)) (b ++ c) = true.
  Proof. intros (g & _ & ->). repeat split. Qed.
  Lemma g_optional (I : pst -> pst -> Prop) b s : tok [124] b -> heads no_gap s = true -> (forall bb st l, I bb st -> I bb (set_psig l st)) ->
    gd false [SVal (PN_NUM 124)] I (Rul r_optional) (b ++ s) s I.
  Proof.
    intros (g & G & ->) N HI. apply gd_rul0; [reflexivity|]. cbn [grammar app].
    eapply gd_conseq; [eapply gd_seq; [apply gd_skips; [apply skips_chr | reflexivity]|] | reflexivity | reflexivity].
    eapply gd_conseq; [eapply gd_seq; [apply gd_skips; [apply skips_sp; assumption | reflexivity]|] | reflexivity | reflexivity].
    apply gd_act; [right; reflexivity|]. intros t bb st L. eexists. split; [reflexivity|]. split; [apply HI, L | reflexivity].
  Qed.
  Definition closes (r : list Z) : Prop := follows r /\ heads (fun c => c =? 46) r = true.
  Lemma closes_44 r : closes r -> heads (fun c => negb (c =? 44)) r = true /\ heads (fun c => negb (c =? 124)) r = true.
  Proof. intros [_ H]. split; (eapply heads_imp; [exact H|]); intros c; lia. Qed.
  Lemma no_optional r : heads (fun c => negb (c =? 124)) r = true -> fails (Rul r_optional) r.
  Proof.
    intros H. apply fails_rul. cbn [grammar]. apply fails_seq1, misses_fails. destruct r as [|c r]; [apply misses_chr_nil|]. apply misses_chr. cbn [heads] in H. lia.
  Qed.
  Lemma enc_app a b : enc (a ++ b) = enc a ++ enc b.
  Proof. unfold enc. rewrite map_app, concat_app. reflexivity. Qed.
  Lemma g_list q l s r : arg_list str q l s -> closes r -> gd q (map sfw (enc l)) at0 (Rul r_arg_list) (s ++ r) r at0.
  Proof.
    intros L C. destruct (closes_44 _ C) as [C1 C2]. destruct C as [F _]. apply gd_rul0; [reflexivity|]. cbn [grammar].
    destruct L as [q l s S|q l a b q' m c S B T|q m b c B T].
    - apply gd_alt1. eapply gd_conseq; [eapply gd_seq; [apply g_set; eassumption | apply gd_opt0, fails_seq1, no_optional, C2] | |].
      + symmetry. apply orb_false_r.
      + symmetry. apply app_nil_r.
    - apply gd_alt1. repeat rewrite <- app_assoc. destruct (bar_follows b (c ++ r) B) as [B1 B2]. destruct (set_start _ _ _ T) as (x & u & E & X). destruct (starter_gap _ X) as [X1 _].
      rewrite enc_app, map_app. change (enc (Bar :: m)) with ([PN_NUM 124] ++ enc m). rewrite map_app.
      eapply gd_seq; [apply g_set; eassumption|]. apply gd_opt1. change q' with (false || q') at 1.
      cbn [map]. rewrite sfw_num. eapply gd_seq; [apply g_optional; [exact B | rewrite E; exact X1 | intros; exact Logic.I]|]. apply g_set; assumption.
    - rewrite <- app_assoc. destruct (set_start _ _ _ T) as (x & u & E & X). destruct (starter_gap _ X) as [X1 _].
      apply gd_alt2; [destruct B as (g & _ & ->); cbn [app]; pf [124]|].
      change (enc (Bar :: m)) with ([PN_NUM 124] ++ enc m). rewrite map_app. change q with (false || q).
      cbn [map]. rewrite sfw_num. eapply gd_seq; [apply g_optional; [exact B | rewrite E; exact X1 | intros; exact Logic.I]|]. apply g_set; assumption.
  Qed.
  (** ** Lists with full stops *)
  Inductive lists_tail : bool -> list item -> lang :=
  | lt_nil : lists_tail false [] []
  | lt_cons q l a b q' m c : tok [46] b -> arg_list str q l a -> lists_tail q' m c -> lists_tail (q || q') (Dots :: l ++ m) (b ++ a ++ c).
  Lemma lists_split q l s : arg_lists str q l s -> exists q1 l1 q2 l2 s1 s2, l = l1 ++ l2 /\ s = s1 ++ s2 /\ q = q1 || q2 /\ arg_list str q1 l1 s1 /\ lists_tail q2 l2 s2.
  Proof.
    induction 1 as [q l s A|q l a b q' m c A B C (q1 & l1 & q2 & l2 & s1 & s2 & -> & -> & -> & A1 & A2)].
    - exists q, l, false, [], s, []. rewrite !app_nil_r, orb_false_r. repeat split; [exact A | constructor].
    - exists q, l, (q1 || q2), (Dots :: l1 ++ l2), a, (b ++ s1 ++ s2). repeat split; [exact A | constructor; assumption].
  Qed.
  Lemma lists_follows q l s r : lists_tail q l s -> closes r -> closes (s ++ r).
  Proof.
    intros T F. destruct T as [|q l a b q' m c (g & G & ->) A T]; [exact F|]. cbn [app]. split; [|reflexivity]. split; [reflexivity|].
    destruct (list_start _ _ _ A) as (x & u & -> & X). destruct (starter_gap _ X) as [_ X2].
    destruct g as [|y g]; cbn [app no_frac]; [exact X2|]. unfold spaces in G. cbn [forallb] in G. apply andb_true_iff in G. destruct G as [G _].
    unfold blank in G. unfold digit, between. lia.
  Qed.
  Lemma g_sep b s : tok [46] b -> heads no_gap s = true -> gd false [SVal (PN_NUM 46)] at0 (Rul r_arg_sep) (b ++ s) s at0.
  Proof.
    intros (g & G & ->) N. apply gd_rul0; [reflexivity|]. cbn [grammar app].
    eapply gd_conseq; [eapply gd_seq; [apply gd_skips; [apply skips_chr | reflexivity]|] | reflexivity | reflexivity].
    eapply gd_conseq; [eapply gd_seq; [apply gd_skips; [apply skips_sp; assumption | reflexivity]|] | reflexivity | reflexivity].
    apply gd_act; [right; reflexivity|]. intros t bb st L. eexists. split; [reflexivity|]. split; [exact Logic.I | reflexivity].
  Qed.
  (** the end: nothing, or the dots *)
  Definition the_end (r : list Z) : Prop := r = [] \/ exists g, spaces g /\ r = 46 :: 46 :: 46 :: g.
  Lemma end_closes r : the_end r -> closes r.
  Proof. intros [-> |(g & _ & ->)]; repeat split. Qed.
  Lemma prun_eof n e p : prun n e p true = PF -> fails e p.
  Proof.
    intros H be. pose proof (prun_ok n e p true [] (fun _ => eq_refl)) as K. rewrite H in K.
    destruct (K be) as (be' & E). rewrite app_nil_r in E. eauto.
  Qed.
  Lemma end_sep r : the_end r -> fails (Rul r_arg_sep >> Rul r_arg_list) r.
  Proof.
    intros [-> |(g & G & ->)].
    - apply (prun_eof 200). vm_compute. reflexivity.
    - destruct g as [|c g].
      + apply (prun_eof 200). vm_compute. reflexivity.
      + unfold spaces in G. cbn [forallb] in G. apply andb_true_iff in G. destruct G as [G _]. unfold blank in G.
        assert (C : c = 32 \/ c = 9 \/ c = 11 \/ c = 12) by lia.
        destruct C as [-> |[-> |[-> | ->]]]; [pf [46; 46; 46; 32] | pf [46; 46; 46; 9] | pf [46; 46; 46; 11] | pf [46; 46; 46; 12]].
  Qed.
  Lemma g_lists q l s r : arg_lists str q l s -> the_end r -> gd q (map sfw (enc l)) at0 (Rul r_args) (s ++ r) r at0.
  Proof.
    intros L E. pose proof (end_closes _ E) as C. destruct (lists_split _ _ _ L) as (q1 & l1 & q2 & l2 & s1 & s2 & -> & -> & -> & A & T). clear L.
    apply gd_rul0; [reflexivity|]. cbn [grammar]. rewrite <- app_assoc. rewrite enc_app, map_app.
    eapply gd_seq; [apply g_list; [exact A | eapply lists_follows; eassumption]|]. clear A.
    induction T as [|q l a b q' m c B A T IH].
    - cbn [app]. apply gd_star0, end_sep, E.
    - pose proof (lists_follows _ _ _ _ T C) as C'. destruct (list_start _ _ _ A) as (x & u & Ea & X). destruct (starter_gap _ X) as [X1 X2].
      repeat rewrite <- app_assoc. change (Dots :: l ++ m) with (([Dots] ++ l) ++ m). rewrite enc_app, map_app. eapply gd_star1; [|exact IH].
      rewrite enc_app, map_app. change q with (false || q). change (enc [Dots]) with [PN_NUM 46]. cbn [map]. rewrite sfw_num.
      eapply gd_seq; [apply g_sep; [exact B | rewrite Ea; exact X1]|]. apply g_list; assumption.
  Qed.
  (** ** Signatures *)
  Lemma g_eof : gd false [] at0 (Rul r_eof) [] [] at0.
  Proof. apply gd_skips; [|reflexivity]. apply skips_rul; [reflexivity|]. cbn [grammar]. apply skips_nt. intros be. exists 1%nat. reflexivity. Qed.
  Lemma g_sig q l s : sig_text str q l s -> gd q (map sfw (enc l)) at0 (Rul r_sig) s [] at0.
  Proof.
    assert (N : fails (Rul r_args) []) by (apply (prun_eof 200); vm_compute; reflexivity).
    intros S. apply gd_rul0; [reflexivity|]. cbn [grammar].
    eapply gd_conseq; [eapply gd_seq; [apply gd_plus|apply g_eof] | symmetry; apply orb_false_r | symmetry; apply app_nil_r].
    destruct S as [q l s L|q l a b L (g & G & ->)].
    - eapply gd_conseq; [eapply gd_seq; [|apply gd_star0, N] | symmetry; apply orb_false_r | symmetry; apply app_nil_r].
      rewrite <- (app_nil_r s) at 1. apply g_lists; [exact L | left; reflexivity].
    - rewrite enc_app, map_app. replace q with (q || false) by apply orb_false_r.
      eapply gd_seq; [apply g_lists; [exact L | right; exists g; auto]|].
      eapply gd_conseq; [eapply (gd_star1 false); [|apply gd_star0, N] | reflexivity | symmetry; apply app_nil_r].
      rewrite <- (app_nil_r ([46; 46; 46] ++ g)). apply g_lists; [|left; reflexivity].
      apply lists_one, list_one, set_one, arg_dots. exists g. auto.
  Qed.
  Lemma sig_found q l s junk : sig_text str q l s ->
    exists n, forall m, (n <= m)%nat -> sig_n str dbl m junk s = Some (if q then PSUndef else PSig (map sfw (enc l))).
  Proof.
    intros S. destruct (g_sig _ _ _ S (s, s)) as (n & be' & t & E & C & X). exists n. intros m M. unfold sig_n.
    rewrite (run_le _ _ n m _ _ _ _ M E), C. destruct q; [reflexivity|].
    destruct (X (start_pst junk) (start_pst junk) Logic.I) as (st' & Y & _ & Q). rewrite Y, Q. reflexivity.
  Qed.
End Sig.
