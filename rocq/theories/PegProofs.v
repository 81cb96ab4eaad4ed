(** Reasoning about the generated parser: what a phrase does ([does]), when it does
    not match ([fails]), and a partial evaluator that decides both from a known
    beginning of the text ([prun]). *)
From Verif Require Import Base CompileModel PegModel PegTerm SyntaxModel.
From Coq Require Import Arith.PeanoNat.

Notation grun := (run grammar nvars).
Definition fails (e : gpe) (s : list Z) : Prop := forall be, exists n be', grun n e s be = Some (Fail be').

(** ** Partial evaluation *)
Inductive pres := PF | PM (p : list Z) | PU.
Fixpoint pstr (l p : list Z) (eof : bool) : pres :=
  match l with
  | [] => PM p
  | c :: l => match p with
              | x :: p => if x =? c then pstr l p eof else PF
              | [] => if eof then PF else PU
              end
  end.
Fixpoint prun (n : nat) (e : gpe) (p : list Z) (eof : bool) : pres :=
  match n with
  | O => PU
  | S n =>
    match e with
    | Chr c => match p with x :: p' => if x =? c then PM p' else PF | [] => if eof then PF else PU end
    | Str l => pstr l p eof
    | Cls f => match p with x :: p' => if f x then PM p' else PF | [] => if eof then PF else PU end
    | Dot => match p with _ :: p' => PM p' | [] => if eof then PF else PU end
    | Seq a b => match prun n a p eof with PM p1 => prun n b p1 eof | r => r end
    | Alt a b => match prun n a p eof with PF => prun n b p eof | r => r end
    | Star a => match prun n a p eof with PM p1 => prun n (Star a) p1 eof | PF => PM p | PU => PU end
    | Plus a => prun n (Seq a (Star a)) p eof
    | Opt a => match prun n a p eof with PF => PM p | r => r end
    | Nt a => match prun n a p eof with PF => PM p | PM _ => PF | PU => PU end
    | Rul r => prun n (grammar r) p eof
    | Var _ r => prun n (Rul r) p eof
    | Act _ | Bg | En => PM p
    end
  end.
Definition known (p u : list Z) (eof : bool) : Prop := eof = true -> u = [].
Lemma pstr_ok l : forall p eof u, known p u eof ->
  match pstr l p eof with
  | PF => match_str l (p ++ u) = None
  | PM p' => match_str l (p ++ u) = Some (p' ++ u)
  | PU => True
  end.
Proof.
  induction l as [|c l IH]; intros p eof u K; cbn [pstr match_str]; [reflexivity|].
  destruct p as [|x p].
  - destruct eof; [|exact Logic.I]. rewrite (K eq_refl). reflexivity.
  - cbn [app]. destruct (x =? c); [apply IH, K | reflexivity].
Qed.
Lemma prun_ok n : forall e p eof u, known p u eof ->
  match prun n e p eof with
  | PF => forall be, exists be', grun n e (p ++ u) be = Some (Fail be')
  | PM p' => forall be, exists be' t, grun n e (p ++ u) be = Some (Match (p' ++ u) be' t)
  | PU => True
  end.
Proof.
  induction n as [|n IH]; intros e p eof u K; [exact Logic.I|].
  destruct e; cbn [prun].
  - destruct p as [|x p].
    + destruct eof; [|exact Logic.I]. rewrite (K eq_refl). intros be. exists be. reflexivity.
    + destruct (x =? c) eqn:E; intros be; cbn [run app]; rewrite E; eauto.
  - pose proof (pstr_ok l p eof u K) as H. destruct (pstr l p eof); [| |exact Logic.I]; intros be; cbn [run]; rewrite H; eauto.
  - destruct p as [|x p].
    + destruct eof; [|exact Logic.I]. rewrite (K eq_refl). intros be. exists be. reflexivity.
    + destruct (f x) eqn:E; intros be; cbn [run app]; rewrite E; eauto.
  - destruct p as [|x p].
    + destruct eof; [|exact Logic.I]. rewrite (K eq_refl). intros be. exists be. reflexivity.
    + intros be; cbn [run app]; eauto.
  - pose proof (IH e1 p eof u K) as H1. destruct (prun n e1 p eof) as [|p1|]; [| |exact Logic.I].
    + intros be. destruct (H1 be) as (be' & E). cbn [run]. rewrite E. eauto.
    + pose proof (IH e2 p1 eof u K) as H2. destruct (prun n e2 p1 eof) as [|p2|]; [| |exact Logic.I];
      intros be; destruct (H1 be) as (be1 & t1 & E); cbn [run]; rewrite E.
      * destruct (H2 be1) as (be2 & E2). rewrite E2. eauto.
      * destruct (H2 be1) as (be2 & t2 & E2). rewrite E2. eauto.
  - pose proof (IH e1 p eof u K) as H1. destruct (prun n e1 p eof) as [|p1|]; [| |exact Logic.I].
    + pose proof (IH e2 p eof u K) as H2. destruct (prun n e2 p eof) as [|p2|]; [| |exact Logic.I];
      intros be; destruct (H1 be) as (be1 & E); cbn [run]; rewrite E.
      * destruct (H2 be1) as (be2 & E2). eauto.
      * destruct (H2 be1) as (be2 & t2 & E2). eauto.
    + intros be. destruct (H1 be) as (be' & t & E). cbn [run]. rewrite E. eauto.
  - pose proof (IH e p eof u K) as H1. destruct (prun n e p eof) as [|p1|]; [| |exact Logic.I].
    + intros be. destruct (H1 be) as (be' & E). cbn [run]. rewrite E. eauto.
    + pose proof (IH (Star e) p1 eof u K) as H2. destruct (prun n (Star e) p1 eof) as [|p2|]; [| |exact Logic.I];
      intros be; destruct (H1 be) as (be1 & t1 & E); cbn [run]; rewrite E.
      * destruct (H2 be1) as (be2 & E2). rewrite E2. eauto.
      * destruct (H2 be1) as (be2 & t2 & E2). rewrite E2. eauto.
  - exact (IH (Seq e (Star e)) p eof u K).
  - pose proof (IH e p eof u K) as H1. destruct (prun n e p eof) as [|p1|]; [| |exact Logic.I].
    + intros be. destruct (H1 be) as (be' & E). cbn [run]. rewrite E. eauto.
    + intros be. destruct (H1 be) as (be' & t & E). cbn [run]. rewrite E. eauto.
  - pose proof (IH e p eof u K) as H1. destruct (prun n e p eof) as [|p1|]; [| |exact Logic.I].
    + intros be. destruct (H1 be) as (be' & E). cbn [run]. rewrite E. eauto.
    + intros be. destruct (H1 be) as (be' & t & E). cbn [run]. rewrite E. eauto.
  - pose proof (IH (grammar r) p eof u K) as H1. destruct (prun n (grammar r) p eof) as [|p1|]; [| |exact Logic.I].
    + intros be. destruct (H1 be) as (be' & E). cbn [run]. rewrite E. eauto.
    + intros be. destruct (H1 be) as (be' & t & E). cbn [run]. rewrite E. eauto.
  - pose proof (IH (Rul r) p eof u K) as H1. destruct (prun n (Rul r) p eof) as [|p1|]; [| |exact Logic.I].
    + intros be. destruct (H1 be) as (be' & E). cbn [run]. rewrite E. eauto.
    + intros be. destruct (H1 be) as (be' & t & E). cbn [run]. rewrite E. eauto.
  - intros be. cbn [run]. eauto.
  - intros be. cbn [run]. eauto.
  - intros be. cbn [run]. eauto.
Qed.
Lemma prun_fails n e p u : prun n e p false = PF -> fails e (p ++ u).
Proof.
  intros H be. pose proof (prun_ok n e p false u ltac:(discriminate)) as K. rewrite H in K.
  destruct (K be) as (be' & E). eauto.
Qed.
Lemma prun_fails_eof n e : prun n e [] true = PF -> fails e [].
Proof.
  intros H be. pose proof (prun_ok n e [] true [] (fun _ => eq_refl)) as K. rewrite H in K.
  destruct (K be) as (be' & E). eauto.
Qed.

(** ** Failing *)
Ltac fuel1 n := exists (S n); cbn [run].
Lemma fails_seq1 a b s : fails a s -> fails (Seq a b) s.
Proof. intros H be. destruct (H be) as (n & be' & E). fuel1 n. rewrite E. eauto. Qed.
Lemma fails_alt a b s : fails a s -> fails b s -> fails (Alt a b) s.
Proof.
  intros H1 H2 be. destruct (H1 be) as (n & be1 & E1). destruct (H2 be1) as (m & be2 & E2).
  fuel1 (Nat.max n m). rewrite (run_le _ _ n _ _ _ _ _ (Nat.le_max_l n m) E1).
  rewrite (run_le _ _ m _ _ _ _ _ (Nat.le_max_r n m) E2). eauto.
Qed.
Lemma fails_rul r s : fails (grammar r) s -> fails (Rul r) s.
Proof. intros H be. destruct (H be) as (n & be' & E). fuel1 n. rewrite E. eauto. Qed.
Lemma fails_var k r s : fails (Rul r) s -> fails (Var k r) s.
Proof. intros H be. destruct (H be) as (n & be' & E). fuel1 n. rewrite E. eauto. Qed.
Lemma fails_plus a s : fails a s -> fails (Plus a) s.
Proof. intros H be. destruct (fails_seq1 a (Star a) s H be) as (n & be' & E). fuel1 n. eauto. Qed.

(** ** Matching *)
Section Does.
  Context (str dbl : list Z -> Z).
  Notation exec := (exec str dbl).
  (** on the text [s], [e] matches and leaves [r]; its actions, run from any state
      that satisfies [I], succeed and lead to one that satisfies [J]; [b] is a ghost
      (usually the state at the start of the rule) *)
  Definition does (I : pst -> pst -> Prop) (e : gpe) (s r : list Z) (J : pst -> pst -> Prop) : Prop :=
    forall be, exists n be' t, grun n e s be = Some (Match r be' t)
      /\ forall b st, I b st -> exists st', exec t st = XOk st' /\ J b st'.
  (** no effect, and begin and end are left alone *)
  Definition skips (e : gpe) (s r : list Z) : Prop :=
    forall be, exists n t, grun n e s be = Some (Match r be t) /\ forall st, exec t st = XOk st.
  Definition misses (e : gpe) (s : list Z) : Prop := forall be, exists n, grun n e s be = Some (Fail be).

  Lemma exec_app l1 : forall l2 st, exec (l1 ++ l2) st = match exec l1 st with XOk st' => exec l2 st' | x => x end.
  Proof.
    induction l1 as [|t l1 IH]; intros l2 st; cbn [app SyntaxModel.exec]; [reflexivity|].
    destruct (do_thunk str dbl t st); [apply IH | reflexivity | reflexivity].
  Qed.
  Lemma exec_app_ok l1 l2 st st' : exec l1 st = XOk st' -> exec (l1 ++ l2) st = exec l2 st'.
  Proof. intros H. rewrite exec_app, H. reflexivity. Qed.

  Lemma does_conseq (I I' J J' : pst -> pst -> Prop) e s r : does I e s r J ->
    (forall b st, I' b st -> I b st) -> (forall b st, J b st -> J' b st) -> does I' e s r J'.
  Proof.
    intros H V W be. destruct (H be) as (n & be' & t & E & X). exists n, be', t. split; [exact E|].
    intros b st L. destruct (X b st (V _ _ L)) as (st' & Y & Z). eauto.
  Qed.
  Lemma skips_does I e s r : skips e s r -> does I e s r I.
  Proof.
    intros H be. destruct (H be) as (n & t & E & X). exists n, be, t. split; [exact E|].
    intros b st L. exists st. auto.
  Qed.
  Lemma misses_fails e s : misses e s -> fails e s.
  Proof. intros H be. destruct (H be) as (n & E). eauto. Qed.
  Lemma does_seq (I M J : pst -> pst -> Prop) a b s s1 s2 : does I a s s1 M -> does M b s1 s2 J -> does I (Seq a b) s s2 J.
  Proof.
    intros H1 H2 be. destruct (H1 be) as (n & be1 & t1 & E1 & X1). destruct (H2 be1) as (m & be2 & t2 & E2 & X2).
    exists (S (Nat.max n m)), be2, (t1 ++ t2). split.
    - cbn [run]. rewrite (run_le _ _ n _ _ _ _ _ (Nat.le_max_l n m) E1).
      rewrite (run_le _ _ m _ _ _ _ _ (Nat.le_max_r n m) E2). reflexivity.
    - intros g st L. destruct (X1 g st L) as (st1 & Y1 & Z1). destruct (X2 g st1 Z1) as (st2 & Y2 & Z2).
      exists st2. split; [rewrite (exec_app_ok _ _ _ _ Y1); exact Y2 | exact Z2].
  Qed.
  Lemma skips_seq a b s s1 s2 : skips a s s1 -> skips b s1 s2 -> skips (Seq a b) s s2.
  Proof.
    intros H1 H2 be. destruct (H1 be) as (n & t1 & E1 & X1). destruct (H2 be) as (m & t2 & E2 & X2).
    exists (S (Nat.max n m)), (t1 ++ t2). split.
    - cbn [run]. rewrite (run_le _ _ n _ _ _ _ _ (Nat.le_max_l n m) E1).
      rewrite (run_le _ _ m _ _ _ _ _ (Nat.le_max_r n m) E2). reflexivity.
    - intros st. rewrite (exec_app_ok _ _ _ _ (X1 st)). apply X2.
  Qed.
  Lemma skips_does_seq I a b s s1 s2 J : skips a s s1 -> does I b s1 s2 J -> does I (Seq a b) s s2 J.
  Proof. intros H1 H2. eapply does_seq; [apply skips_does, H1 | exact H2]. Qed.
  Lemma fails_seq2 I a b s s1 P : does I a s s1 P -> fails b s1 -> fails (Seq a b) s.
  Proof.
    intros H1 H2 be. destruct (H1 be) as (n & be1 & t1 & E1 & _). destruct (H2 be1) as (m & be2 & E2).
    fuel1 (Nat.max n m). rewrite (run_le _ _ n _ _ _ _ _ (Nat.le_max_l n m) E1).
    rewrite (run_le _ _ m _ _ _ _ _ (Nat.le_max_r n m) E2). eauto.
  Qed.
  Lemma fails_nt I a s s1 P : does I a s s1 P -> fails (Nt a) s.
  Proof. intros H be. destruct (H be) as (n & be1 & t1 & E1 & _). fuel1 n. rewrite E1. eauto. Qed.
  Lemma does_nt I a s : fails a s -> does I (Nt a) s s I.
  Proof.
    intros H be. destruct (H be) as (n & be1 & E1). exists (S n), be1, []. split; [cbn [run]; rewrite E1; reflexivity|].
    intros b st L. exists st. split; [reflexivity | exact L].
  Qed.
  Lemma skips_nt a s : misses a s -> skips (Nt a) s s.
  Proof. intros H be. destruct (H be) as (n & E). exists (S n), []. split; [cbn [run]; rewrite E; reflexivity | reflexivity]. Qed.
  Lemma does_alt1 I a b s r P : does I a s r P -> does I (Alt a b) s r P.
  Proof.
    intros H be. destruct (H be) as (n & be1 & t & E & X). exists (S n), be1, t. split; [cbn [run]; rewrite E; reflexivity | exact X].
  Qed.
  Lemma does_alt2 I a b s r P : fails a s -> does I b s r P -> does I (Alt a b) s r P.
  Proof.
    intros H1 H2 be. destruct (H1 be) as (n & be1 & E1). destruct (H2 be1) as (m & be2 & t & E2 & X).
    exists (S (Nat.max n m)), be2, t. split; [|exact X].
    cbn [run]. rewrite (run_le _ _ n _ _ _ _ _ (Nat.le_max_l n m) E1).
    rewrite (run_le _ _ m _ _ _ _ _ (Nat.le_max_r n m) E2). reflexivity.
  Qed.
  Lemma skips_alt1 a b s r : skips a s r -> skips (Alt a b) s r.
  Proof. intros H be. destruct (H be) as (n & t & E & X). exists (S n), t. split; [cbn [run]; rewrite E; reflexivity | exact X]. Qed.
  Lemma skips_alt2 a b s r : misses a s -> skips b s r -> skips (Alt a b) s r.
  Proof.
    intros H1 H2 be. destruct (H1 be) as (n & E1). destruct (H2 be) as (m & t & E2 & X).
    exists (S (Nat.max n m)), t. split; [|exact X].
    cbn [run]. rewrite (run_le _ _ n _ _ _ _ _ (Nat.le_max_l n m) E1).
    rewrite (run_le _ _ m _ _ _ _ _ (Nat.le_max_r n m) E2). reflexivity.
  Qed.
  Lemma does_opt1 I a s r P : does I a s r P -> does I (Opt a) s r P.
  Proof.
    intros H be. destruct (H be) as (n & be1 & t & E & X). exists (S n), be1, t. split; [cbn [run]; rewrite E; reflexivity | exact X].
  Qed.
  Lemma does_opt0 I a s : fails a s -> does I (Opt a) s s I.
  Proof.
    intros H be. destruct (H be) as (n & be1 & E1). exists (S n), be1, []. split; [cbn [run]; rewrite E1; reflexivity|].
    intros b st L. exists st. split; [reflexivity | exact L].
  Qed.
  Lemma skips_opt1 a s r : skips a s r -> skips (Opt a) s r.
  Proof. intros H be. destruct (H be) as (n & t & E & X). exists (S n), t. split; [cbn [run]; rewrite E; reflexivity | exact X]. Qed.
  Lemma skips_opt0 a s : misses a s -> skips (Opt a) s s.
  Proof. intros H be. destruct (H be) as (n & E). exists (S n), []. split; [cbn [run]; rewrite E; reflexivity | reflexivity]. Qed.
  Lemma does_star0 I a s : fails a s -> does I (Star a) s s I.
  Proof.
    intros H be. destruct (H be) as (n & be1 & E1). exists (S n), be1, []. split; [cbn [run]; rewrite E1; reflexivity|].
    intros b st L. exists st. split; [reflexivity | exact L].
  Qed.
  Lemma does_star1 (I M J : pst -> pst -> Prop) a s s1 s2 : does I a s s1 M -> does M (Star a) s1 s2 J -> does I (Star a) s s2 J.
  Proof.
    intros H1 H2 be. destruct (H1 be) as (n & be1 & t1 & E1 & X1). destruct (H2 be1) as (m & be2 & t2 & E2 & X2).
    exists (S (Nat.max n m)), be2, (t1 ++ t2). split.
    - cbn [run]. rewrite (run_le _ _ n _ _ _ _ _ (Nat.le_max_l n m) E1).
      rewrite (run_le _ _ m _ _ _ _ _ (Nat.le_max_r n m) E2). reflexivity.
    - intros g st L. destruct (X1 g st L) as (st1 & Y1 & Z1). destruct (X2 g st1 Z1) as (st2 & Y2 & Z2).
      exists st2. split; [rewrite (exec_app_ok _ _ _ _ Y1); exact Y2 | exact Z2].
  Qed.
  Lemma skips_star0 a s : misses a s -> skips (Star a) s s.
  Proof. intros H be. destruct (H be) as (n & E). exists (S n), []. split; [cbn [run]; rewrite E; reflexivity | reflexivity]. Qed.
  Lemma skips_star1 a s s1 s2 : skips a s s1 -> skips (Star a) s1 s2 -> skips (Star a) s s2.
  Proof.
    intros H1 H2 be. destruct (H1 be) as (n & t1 & E1 & X1). destruct (H2 be) as (m & t2 & E2 & X2).
    exists (S (Nat.max n m)), (t1 ++ t2). split.
    - cbn [run]. rewrite (run_le _ _ n _ _ _ _ _ (Nat.le_max_l n m) E1).
      rewrite (run_le _ _ m _ _ _ _ _ (Nat.le_max_r n m) E2). reflexivity.
    - intros st. rewrite (exec_app_ok _ _ _ _ (X1 st)). apply X2.
  Qed.
  Lemma does_rul0 I r s s' P : nvars r = 0 -> does I (grammar r) s s' P -> does I (Rul r) s s' P.
  Proof.
    intros N H be. destruct (H be) as (n & be1 & t & E & X). exists (S n), be1, t. split; [|exact X].
    cbn [run]. rewrite E. unfold framed. rewrite N. reflexivity.
  Qed.
  Lemma skips_rul r s s' : nvars r = 0 -> skips (grammar r) s s' -> skips (Rul r) s s'.
  Proof.
    intros N H be. destruct (H be) as (n & t & E & X). exists (S n), t. split; [|exact X].
    cbn [run]. rewrite E. unfold framed. rewrite N. reflexivity.
  Qed.
  Lemma misses_rul r s : misses (grammar r) s -> misses (Rul r) s.
  Proof. intros H be. destruct (H be) as (n & E). exists (S n). cbn [run]. rewrite E. reflexivity. Qed.
  Lemma does_act (I J : pst -> pst -> Prop) a s :
    (forall t b st, I b st -> exists st', do_act str dbl a t st = XOk st' /\ J b st') ->
    does I (Act a) s s J.
  Proof.
    intros H be. exists 1%nat, be, [TAct a (text_of be)]. split; [reflexivity|].
    intros b st L. destruct (H (text_of be) b st L) as (st' & V & U). exists st'. split; [|exact U].
    cbn [SyntaxModel.exec do_thunk]. rewrite V. reflexivity.
  Qed.

  (** ** Frames: [n] variables of the current rule, of which [K] holds; below them
      the stack is that of the ghost *)
  Definition fr (n : Z) (K : (Z -> sf) -> Prop) : pst -> pst -> Prop :=
    fun b st => top st = top b + n /\ (forall i, i < top b -> vals st i = vals b i) /\ K (val st).
  Definition out (n : Z) (t : sf) : pst -> pst -> Prop :=
    fun b st => top st = top b + n /\ (forall i, i < top b -> vals st i = vals b i) /\ yy st = t.
  (** the phrase is matched and its value is [t] *)
  Definition yields (e : gpe) (s r : list Z) (t : sf) : Prop := does (fun b st => b = st) e s r (out 0 t).

  Lemma yields_rul r s s' t : does (fr (nvars r) (fun _ => True)) (grammar r) s s' (out (nvars r) t) -> yields (Rul r) s s' t.
  Proof.
    intros H be. destruct (H be) as (n & be1 & t1 & E & X). exists (S n), be1. unfold yields.
    exists (framed nvars r t1). split; [cbn [run]; rewrite E; reflexivity|].
    intros b st ->. unfold framed. destruct (nvars r =? 0) eqn:N.
    - apply Z.eqb_eq in N. rewrite N in X.
      destruct (X st st) as (st' & Y & Z); [repeat split; lia|]. exists st'. split; [exact Y | exact Z].
    - destruct (X st (set_top (top st + nvars r) st)) as (m & Y & (Z1 & Z2 & Z3)); [repeat split|].
      exists (set_top (top m - nvars r) m). split.
      + cbn [SyntaxModel.exec do_thunk]. rewrite (exec_app_ok _ _ _ _ Y). reflexivity.
      + repeat split; cbn [set_top top vals yy]; [lia | exact Z2 | exact Z3].
  Qed.
  (** a rule without variables: its body *)
  Lemma yields_rul0 r s s' t : nvars r = 0 -> yields (grammar r) s s' t -> yields (Rul r) s s' t.
  Proof.
    intros N H be. destruct (H be) as (n & be1 & t1 & E & X). exists (S n), be1, t1. split; [|exact X].
    cbn [run]. rewrite E. unfold framed. rewrite N. reflexivity.
  Qed.
  Lemma val_set k v st j : val (set_val k v st) j = if j =? k then v else val st j.
  Proof.
    unfold val, set_val, upd_val. cbn [vals top].
    replace (top st + j =? top st + k) with (j =? k); [reflexivity|].
    destruct (j =? k) eqn:E, (top st + j =? top st + k) eqn:F; try reflexivity; lia.
  Qed.
  Definition bind_to (k : Z) (t : sf) (K K' : (Z -> sf) -> Prop) : Prop :=
    forall v v', K v -> v' k = t -> (forall j, j < 0 -> j <> k -> v' j = v j) -> K' v'.
  Lemma does_var n K K' k r s s' t : yields (Rul r) s s' t -> 0 <= n -> - n <= k < 0 -> bind_to k t K K' ->
    does (fr n K) (Var k r) s s' (fun b st => fr n K' b st /\ yy st = t).
  Proof.
    intros H Hn Hk W be. destruct (H be) as (m & be1 & t1 & E & X). exists (S m), be1, (t1 ++ [TSet k]).
    split; [cbn [run]; rewrite E; reflexivity|].
    intros b st (L1 & L2 & L3). destruct (X st st eq_refl) as (st' & Y & (Z1 & Z2 & Z3)).
    exists (set_val k (yy st') st'). split; [rewrite (exec_app_ok _ _ _ _ Y); reflexivity|].
    rewrite Z.add_0_r in Z1.
    split; [|exact Z3].
    split; [cbn; lia|]. split.
    - intros i Hi. cbn [set_val vals upd_val]. unfold upd_val. replace (i =? top st' + k) with false by lia.
      rewrite Z2 by lia. apply L2, Hi.
    - apply (W (val st)); [exact L3| |].
      + rewrite val_set, Z.eqb_refl. exact Z3.
      + intros j J1 J2. rewrite val_set. replace (j =? k) with false by lia.
        unfold val. rewrite Z1. apply Z2. lia.
  Qed.
  Lemma does_var' n K K' k r s s' t : yields (Rul r) s s' t -> 0 <= n -> - n <= k < 0 -> bind_to k t K K' ->
    does (fr n K) (Var k r) s s' (fr n K').
  Proof. intros H Hn Hk W. eapply does_conseq; [eapply does_var; eassumption | auto | intros b st [A _]; exact A]. Qed.
  (** an action that sets variable [k] *)
  Lemma does_set n (K K' : (Z -> sf) -> Prop) k a s (f : (Z -> sf) -> sf) : 0 <= n -> - n <= k < 0 ->
    (forall t st, K (val st) -> do_act str dbl a t st = XOk (set_val k (f (val st)) st)) ->
    (forall v v', K v -> v' k = f v -> (forall j, j <> k -> v' j = v j) -> K' v') ->
    does (fr n K) (Act a) s s (fr n K').
  Proof.
    intros Hn Hk A W. apply does_act. intros t b st (L1 & L2 & L3).
    exists (set_val k (f (val st)) st). split; [apply A, L3|].
    split; [exact L1|]. split.
    - intros i Hi. cbn [set_val vals]. unfold upd_val. replace (i =? top st + k) with false by lia. apply L2, Hi.
    - apply (W (val st)); [exact L3 | rewrite val_set, Z.eqb_refl; reflexivity|].
      intros j Hj. rewrite val_set. replace (j =? k) with false by lia. reflexivity.
  Qed.
  (** an action that sets $$ *)
  Lemma does_ret n (K : (Z -> sf) -> Prop) a s t0 :
    (forall t st, K (val st) -> do_act str dbl a t st = XOk (set_yy t0 st)) ->
    does (fr n K) (Act a) s s (fun b st => fr n K b st /\ yy st = t0).
  Proof.
    intros A. apply does_act. intros t b st (L1 & L2 & L3).
    exists (set_yy t0 st). split; [apply A, L3|]. split; [|reflexivity]. split; [exact L1|]. split; [exact L2 | exact L3].
  Qed.
  Lemma does_ret' n (K : (Z -> sf) -> Prop) a s t0 :
    (forall t st, K (val st) -> do_act str dbl a t st = XOk (set_yy t0 st)) ->
    does (fr n K) (Act a) s s (out n t0).
  Proof.
    intros A. apply (does_conseq _ _ _ _ _ _ _ (does_ret n K a s t0 A)); [auto|].
    intros b st ((L1 & L2 & L3) & Y). split; [exact L1|]. split; [exact L2 | exact Y].
  Qed.
  Lemma does_plus I a s r P : does I (Seq a (Star a)) s r P -> does I (Plus a) s r P.
  Proof. intros H be. destruct (H be) as (n & be1 & t & E & X). exists (S n), be1, t. split; [exact E | exact X]. Qed.
  Lemma skips_plus a s r : skips (Seq a (Star a)) s r -> skips (Plus a) s r.
  Proof. intros H be. destruct (H be) as (n & t & E & X). exists (S n), t. split; [exact E | exact X]. Qed.
  Lemma skips_chr c s : skips (Chr c) (c :: s) s.
  Proof. intros be. exists 1%nat, []. cbn [run]. rewrite Z.eqb_refl. split; reflexivity. Qed.
  Lemma skips_cls f c s : f c = true -> skips (Cls f) (c :: s) s.
  Proof. intros H be. exists 1%nat, []. cbn [run]. rewrite H. split; reflexivity. Qed.
  Lemma match_str_app l s : match_str l (l ++ s) = Some s.
  Proof. induction l as [|c l IH]; cbn [match_str app]; [reflexivity|]. rewrite Z.eqb_refl. exact IH. Qed.
  Lemma skips_str l s : skips (Str l) (l ++ s) s.
  Proof. intros be. exists 1%nat, []. cbn [run]. rewrite match_str_app. split; reflexivity. Qed.
  (** < e > *)
  Lemma does_text (I J : pst -> pst -> Prop) e k s r r2 : skips e s r ->
    (forall be, be = (s, r) -> exists n be' t, grun n k r be = Some (Match r2 be' t)
        /\ forall b st, I b st -> exists st', exec t st = XOk st' /\ J b st') ->
    does I (Seq Bg (Seq e (Seq En k))) s r2 J.
  Proof.
    intros H K be. destruct (H (s, snd be)) as (n & t1 & E1 & X1).
    destruct (K (s, r) eq_refl) as (m & be2 & t2 & E2 & X2).
    set (q := Nat.max n m).
    exists (S (S (S (S q)))), be2, ([] ++ t1 ++ [] ++ t2). split.
    - assert (A1 : grun (S q) e s (s, snd be) = Some (Match r (s, snd be) t1)) by (apply (run_le _ _ n); [unfold q; lia | exact E1]).
      assert (A2 : grun (S q) k r (s, r) = Some (Match r2 be2 t2)) by (apply (run_le _ _ m); [unfold q; lia | exact E2]).
      assert (B : grun (S (S q)) (Seq En k) r (s, snd be) = Some (Match r2 be2 ([] ++ t2))).
      { remember (S q) as q2. cbn [run]. subst q2.
        replace (grun (S q) En r (s, snd be)) with (Some (@Match act r (s, r) [])) by reflexivity.
        rewrite A2. reflexivity. }
      assert (C : grun (S (S (S q))) (Seq e (Seq En k)) s (s, snd be) = Some (Match r2 be2 (t1 ++ [] ++ t2))).
      { remember (S (S q)) as q2. cbn [run]. subst q2. rewrite (run_S _ _ _ _ _ _ _ A1), B. reflexivity. }
      remember (S (S (S q))) as q3. cbn [run]. subst q3.
      replace (grun (S (S (S q))) Bg s be) with (Some (@Match act s (s, snd be) [])) by reflexivity.
      rewrite C. reflexivity.
    - intros b st L. destruct (X2 b st L) as (st' & Y & Z). exists st'. split; [|exact Z].
      cbn [app]. rewrite (exec_app_ok _ _ _ _ (X1 st)). exact Y.
  Qed.
End Does.

(** ** Phrases without < and >: begin and end stay *)
Section Pure.
  Context (pr : rule -> bool).
  Fixpoint pure (e : gpe) : bool :=
    match e with
    | Chr _ | Str _ | Cls _ | Dot | Act _ => true
    | Seq a b | Alt a b => pure a && pure b
    | Star a | Plus a | Opt a | Nt a => pure a
    | Rul r | Var _ r => pr r
    | Bg | En => false
    end.
  Hypothesis pr_ok : forall r, pr r = true -> pure (grammar r) = true.
  Lemma pure_be : forall n e s be o, pure e = true -> grun n e s be = Some o ->
    match o with Match _ be' _ => be' = be | Fail be' => be' = be end.
  Proof.
    induction n as [|n IH]; intros e s be o Pe H; [discriminate H|].
    destruct e; cbn [run] in H; cbn [pure] in Pe.
    - destruct s as [|x s]; [|destruct (x =? c)]; injection H as <-; reflexivity.
    - destruct (match_str l s); injection H as <-; reflexivity.
    - destruct s as [|x s]; [|destruct (f x)]; injection H as <-; reflexivity.
    - destruct s as [|x s]; injection H as <-; reflexivity.
    - apply andb_true_iff in Pe. destruct Pe as [P1 P2].
      destruct (grun n e1 s be) as [[s1 be1 t1|be1]|] eqn:E1; try discriminate.
      + pose proof (IH _ _ _ _ P1 E1) as Q. cbn in Q. subst be1.
        destruct (grun n e2 s1 be) as [[s2 be2 t2|be2]|] eqn:E2; try discriminate;
        injection H as <-; exact (IH _ _ _ _ P2 E2).
      + injection H as <-. exact (IH _ _ _ _ P1 E1).
    - apply andb_true_iff in Pe. destruct Pe as [P1 P2].
      destruct (grun n e1 s be) as [[s1 be1 t1|be1]|] eqn:E1; try discriminate.
      + injection H as <-. exact (IH _ _ _ _ P1 E1).
      + pose proof (IH _ _ _ _ P1 E1) as Q. cbn in Q. subst be1. exact (IH _ _ _ _ P2 H).
    - destruct (grun n e s be) as [[s1 be1 t1|be1]|] eqn:E1; try discriminate.
      + pose proof (IH _ _ _ _ Pe E1) as Q. cbn in Q. subst be1.
        destruct (grun n (Star e) s1 be) as [[s2 be2 t2|be2]|] eqn:E2; try discriminate;
        injection H as <-; exact (IH (Star e) _ _ _ Pe E2).
      + injection H as <-. exact (IH _ _ _ _ Pe E1).
    - apply (IH (Seq e (Star e)) s be o); [cbn [pure]; rewrite Pe; reflexivity | exact H].
    - destruct (grun n e s be) as [[s1 be1 t1|be1]|] eqn:E1; try discriminate; injection H as <-; exact (IH _ _ _ _ Pe E1).
    - destruct (grun n e s be) as [[s1 be1 t1|be1]|] eqn:E1; try discriminate; injection H as <-; exact (IH _ _ _ _ Pe E1).
    - destruct (grun n (grammar r) s be) as [[s1 be1 t1|be1]|] eqn:E1; try discriminate; injection H as <-;
      exact (IH _ _ _ _ (pr_ok _ Pe) E1).
    - destruct (grun n (Rul r) s be) as [[s1 be1 t1|be1]|] eqn:E1; try discriminate; injection H as <-;
      exact (IH (Rul r) _ _ _ Pe E1).
    - injection H as <-. reflexivity.
    - discriminate Pe.
    - discriminate Pe.
  Qed.
  Lemma fails_misses e s : pure e = true -> fails e s -> misses e s.
  Proof.
    intros Pe H be. destruct (H be) as (n & be' & E). exists n. rewrite E.
    pose proof (pure_be _ _ _ _ _ Pe E) as Q. cbn in Q. subst. reflexivity.
  Qed.
End Pure.
