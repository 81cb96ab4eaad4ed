(** The parser builds, from every text of a program, the tree of that program. *)
From Verif Require Import Base WordModel WordProofs NumModel NumProofs CompileModel SrcSpec CompileProofs PegModel PegTerm SyntaxModel SyntaxTerm PegProofs TextSpec SyntaxLex SyntaxLit SyntaxCall SyntaxLick SyntaxExpr.
From Coq Require Import ZifyBool Arith.PeanoNat.

(** ** Joining *)
Lemma joins_nil_r a : joins a [] = true.
Proof. unfold joins. destruct (rev a); reflexivity. Qed.
Lemma joins_head a x b c : joins a (x :: b) = joins a (x :: c).
Proof. reflexivity. Qed.
Lemma joins_l a b r : joins a b = true -> joins (a ++ b) r = true -> joins a (b ++ r) = true.
Proof. intros H J. destruct b as [|x b]; [rewrite app_nil_r in J; exact J|]. exact H. Qed.
Lemma joins_r a b r : joins (a ++ b) r = true -> joins b r = true.
Proof.
  unfold joins. rewrite rev_app_distr. destruct (rev b) as [|x t] eqn:E; [reflexivity|]. cbn [app]. auto.
Qed.
Lemma cat_inv A B s r : (A ^^ B) s -> joins s r = true -> exists a b, s = a ++ b /\ A a /\ B b /\ joins a (b ++ r) = true /\ joins b r = true.
Proof.
  intros (a & b & -> & HA & HB & J) K. exists a, b. repeat split; try assumption; [apply joins_l; assumption | exact (joins_r _ _ _ K)].
Qed.
Lemma no_frac_dot g r : spaces g -> joins (46 :: g) r = true -> no_frac (46 :: g ++ r).
Proof.
  intros G J. destruct g as [|c g].
  - cbn [app no_frac]. destruct r as [|d r]; [exact Logic.I|]. unfold joins in J. cbn [rev app] in J.
    destruct (digit d); [|reflexivity]. rewrite andb_false_r in J. discriminate J.
  - unfold spaces in G. cbn [forallb] in G. apply andb_true_iff in G. destruct G as [G _]. cbn [app no_frac]. unfold blank in G. unfold digit, between. lia.
Qed.

(** ** First characters *)
Definition startc (c : Z) : bool :=
  letter c || digit c || (c =? 39) || (c =? 40) || (c =? 91) || (c =? 47) || (c =? 126) || (c =? 43) || (c =? 45).
Definition starts (s : list Z) : Prop := exists c t, s = c :: t /\ startc c = true.
Lemma starts_app a b : starts a -> starts (a ++ b).
Proof. intros (c & t & -> & H). exists c, (t ++ b). auto. Qed.
Lemma starts_heads f s r : starts s -> (forall c, startc c = true -> f c = true) -> heads f (s ++ r) = true.
Proof. intros (c & t & -> & H) F. cbn [app heads]. auto. Qed.
Lemma startc_cases c : startc c = true -> no_sep c = true /\ no_nl c = true /\ negb (c =? 61) = true.
Proof. unfold startc, letter, digit, between, no_sep, no_nl, no_gap, blank. lia. Qed.
Lemma letter_start c : letter c = true -> startc c = true.
Proof. unfold startc. intros ->. reflexivity. Qed.
Lemma name_starts str x s : name str x s -> starts s.
Proof.
  intros (w & W & _ & g & _ & ->). destruct (ident_q_parts w W) as (c & u & q & -> & C & _). exists c. eexists. split; [reflexivity|]. apply letter_start, C.
Qed.
Lemma path_starts str x s : path str x s -> starts s.
Proof. intros (w & W & _ & g & _ & ->). exists 47. eexists. split; reflexivity. Qed.
Lemma tok_starts w s : tok w s -> starts w -> starts s.
Proof. intros (g & _ & ->) H. apply starts_app, H. Qed.
Lemma cat_starts A B s : (A ^^ B) s -> (forall a, A a -> starts a) -> starts s.
Proof. intros (a & b & -> & H & _) F. apply starts_app, F, H. Qed.
Lemma text_starts str e : forall s, text str e s -> starts s.
Proof.
  assert (K : forall c t, startc c = true -> starts (c :: t)) by (intros c t H; exists c, t; auto).
  assert (T : forall w s, tok w s -> match w with c :: _ => startc c = true | [] => False end -> starts s).
  { intros w s (g & _ & ->) H. destruct w; [contradiction|]. apply K, H. }
  assert (N : forall w s, tokn w s -> match w with c :: _ => startc c = true | [] => False end -> starts s).
  { intros w s (g & _ & ->) H. destruct w; [contradiction|]. apply K, H. }
  induction e; cbn [text]; intros s H; try contradiction H; try destruct H as [_ H]; try (destruct H as [H|H]);
    try (eapply name_starts; exact H); try (eapply path_starts; exact H); try (eapply T; [exact H | reflexivity]);
    try (eapply cat_starts; [exact H|]; first [assumption | intros a Ha; first [eapply name_starts; exact Ha | eapply path_starts; exact Ha
       | eapply N; [exact Ha | reflexivity] | eapply T; [exact Ha | reflexivity]]]; fail).
  - destruct H as (w & (g & _ & ->) & H). apply starts_app.
    destruct H as [(_ & ->)|[(_ & ->)|[(_ & ->)|[(n & B & _ & ->)|(l & _ & _ & ->)]]]]; try (apply K; reflexivity).
    destruct (ld_shape n B) as [(-> & ->)|(d & ds & -> & D & _)]; apply K; [reflexivity|]. unfold startc, digit, between. lia.
  - eapply cat_starts; [exact H|]. intros a (g & _ & _ & ->). apply K. reflexivity.
  - destruct post.
    + eapply cat_starts; [exact H|]. intros a Ha. eapply name_starts; exact Ha.
    + eapply cat_starts; [exact H|]. intros a ->. destruct up; apply K; reflexivity.
  - eapply cat_starts; [exact H|]. intros a (W & Hx). eapply (name_starts str). exists a. split; [exact W|]. split; [exact Hx|]. exists []. split; [reflexivity | symmetry; apply app_nil_r].
  - eapply cat_starts; [exact H|]. intros a Ha. eapply cat_starts; [exact Ha|]. intros a' Ha'. eapply N; [exact Ha' | reflexivity].
Qed.

Section Main.
  Context (str dbl : list Z -> Z) (NK : names_ok str).
  Notation skips := (skips str dbl).
  Notation does := (does str dbl).
  Notation yields := (yields str dbl).
  Notation chain := (chain str dbl).
  Notation loop := (loop str dbl).
  Notation text := (text str).
  Notation body := (body str).

  Lemma kw_name t s : ident t = true -> tok t s -> name str (str t) s.
  Proof. intros I T. exists t. split; [left; exact I|]. split; [reflexivity | exact T]. Qed.

  (** ** Lists, blocks from statements *)
  Definition ends_stmts (r : list Z) : Prop := match r with [] => True | c :: _ => c = 41 \/ c = 46 end /\ no_frac r.
  Definition tup_of (l : list src) : sf := match l with [] => SNil | _ => STup l end.
  Definition good_body (es : exps) : Prop := forall s r, body es s -> ends_stmts r -> joins s r = true ->
    yields (Rul r_statements) (s ++ r) r (tup_of (stms es)).
  Lemma body_opener es s r : body es s -> heads no_nl r = true -> heads no_nl (s ++ r) = true.
  Proof.
    intros B R. destruct es as [|e es]; [cbn in B; rewrite B; exact R|].
    apply starts_heads; [|intros c C; apply startc_cases in C; tauto].
    cbn [TextSpec.body] in B. eapply cat_starts; [exact B|]. apply text_starts.
  Qed.
  Lemma good_paren' es s r : good_body es -> paren (body es) s -> joins s r = true -> heads no_gap r = true ->
    exists s', s = 40 :: s' /\ yields (Rul r_list) (s ++ r) r (ListOf (stms es)).
  Proof.
    intros GB P J B. destruct (cat_inv _ _ _ _ P J) as (a & b & -> & (g & G & ->) & Pb & J1 & J2).
    destruct (cat_inv _ _ _ _ Pb J2) as (c & d & -> & Bc & (g2 & G2 & ->) & J3 & J4).
    exists (g ++ c ++ [41] ++ g2). split; [reflexivity|].
    replace (([40] ++ g) ++ c ++ [41] ++ g2) with (40 :: g ++ c ++ 41 :: g2) by reflexivity.
    replace ((40 :: g ++ c ++ 41 :: g2) ++ r) with (40 :: g ++ c ++ 41 :: g2 ++ r) by (cbn [app]; rewrite <- !app_assoc; cbn [app]; reflexivity).
    unfold ListOf. fold (tup_of (stms es)). apply y_list; try assumption.
    - apply (body_opener es); [exact Bc | reflexivity].
    - apply GB; [exact Bc | split; [left; reflexivity | exact Logic.I] | exact J3].
  Qed.
  Lemma good_paren es s r : good_body es -> paren (body es) s -> joins s r = true -> base r ->
    exists s', s = 40 :: s' /\ yields (Rul r_list) (s ++ r) r (ListOf (stms es)).
  Proof. intros GB P J B. apply good_paren'; [assumption..|]. apply base_gap, B. Qed.
  Lemma good_blk es s r : good_body es -> blk (body es) s -> joins s r = true -> base r ->
    exists s', s = 58 :: s' /\ yields (Rul r_block) (s ++ r) r (BlockOf (stms es)).
  Proof.
    intros GB P J B. destruct (cat_inv _ _ _ _ P J) as (a & b & -> & (g & G & ->) & Pb & J1 & J2).
    destruct (cat_inv _ _ _ _ Pb J2) as (c & d & -> & Bc & (g2 & G2 & ->) & J3 & J4).
    exists (g ++ c ++ [46] ++ g2). split; [reflexivity|].
    replace (([58] ++ g) ++ c ++ [46] ++ g2) with (58 :: g ++ c ++ 46 :: g2) by reflexivity.
    replace ((58 :: g ++ c ++ 46 :: g2) ++ r) with (58 :: g ++ c ++ 46 :: g2 ++ r) by (cbn [app]; rewrite <- !app_assoc; cbn [app]; reflexivity).
    unfold BlockOf. fold (tup_of (stms es)). apply y_block; try assumption.
    - apply (body_opener es); [exact Bc | reflexivity].
    - apply base_gap, B.
    - apply GB; [exact Bc | | exact J3]. split; [right; reflexivity|]. exact (no_frac_dot g2 r G2 J4).
  Qed.
  Lemma paren_base s r : (exists s', s = 40 :: s') -> base (s ++ r).
  Proof. intros (s' & ->). split; [reflexivity | exact Logic.I]. Qed.
  Lemma blk_base s r : (exists s', s = 58 :: s') -> base (s ++ r).
  Proof. intros (s' & ->). split; [reflexivity | exact Logic.I]. Qed.
  Lemma paren_head {A} s : paren A s -> exists s', s = 40 :: s'.
  Proof. intros (a & b & -> & (g & _ & ->) & _). eexists. reflexivity. Qed.
  Lemma blk_head {A} s : blk A s -> exists s', s = 58 :: s'.
  Proof. intros (a & b & -> & (g & _ & ->) & _). eexists. reflexivity. Qed.

  (** ** Starting an expression *)
  Lemma plain_name x s r : name_at str x s r -> plain_start (s ++ r).
  Proof.
    intros [(c & u & q & g & -> & C & U & Q & I & _ & G & St & _)].
    pose proof (misses_word str dbl s_not (c :: u) q (g ++ r) ltac:(cbn; tauto) I Q St) as M.
    cbn [app] in M |- *. rewrite <- !app_assoc.
    repeat split; try lf. unfold a1. apply fails_seq1, misses_fails, misses_rul. cbn [grammar]. apply misses_seq1, misses_alt; [|exact M].
    apply misses_chr. intros ->. discriminate C.
  Qed.
  Ltac starts_pf p := repeat split; pf p.
  Lemma plain_path x s r : path_at str x s r -> plain_start (s ++ r).
  Proof. intros [(c & u & g & -> & _)]. cbn [app]. starts_pf [47]. Qed.
  Lemma plain_paren s r : (exists s', s = 40 :: s') -> plain_start (s ++ r).
  Proof. intros (s' & ->). cbn [app]. starts_pf [40]. Qed.
  Definition digs : list Z := [48; 49; 50; 51; 52; 53; 54; 55; 56; 57].
  Lemma plain_digit d r : digit d = true -> plain_start (d :: r).
  Proof.
    intros D.
    assert (I : In d digs).
    { unfold digit, between in D. unfold digs. cbn [In]. lia. }
    assert (F : forall e, forallb (fun c => is_PF (prun 200 e [c] false)) digs = true -> fails e (d :: r)).
    { intros e H. exact (all_PF 200 (fun _ => e) (fun c => [c]) _ H d r I). }
    repeat split; apply F; vm_compute; reflexivity.
  Qed.
  Lemma plain_lit v w r : lit_word str v w -> plain_start (w ++ r).
  Proof.
    intros [(_ & ->)|[(_ & ->)|[(_ & ->)|[(n & B & _ & ->)|(l & _ & _ & ->)]]]].
    - starts_pf [110; 105; 108].
    - starts_pf [116; 114; 117; 101].
    - starts_pf [102; 97; 108; 115; 101].
    - destruct (ld_shape n B) as [(-> & ->)|(d & ds & -> & D & _)]; cbn [app]; apply plain_digit; [reflexivity|]. unfold digit, between. lia.
    - unfold quoted. cbn [app]. starts_pf [39].
  Qed.

  (** ** The statement of the induction *)
  Definition lv (e : exp) : nat :=
    match e with
    | EBin p _ _ => op_lev p
    | ESet _ _ | EUpSet _ _ | EGlob _ _ | EPathSet _ _ => 9
    | EAnd _ _ | EOr _ _ => 10
    | _ => 0
    end%nat.
  Lemma lv_level e p : src_op p = true -> match e with EBin q _ _ => src_op q = true | _ => True end ->
    (level e < op_level p -> (lv e <= op_lev p - 1)%nat) /\ (level e <= op_level p -> (lv e <= op_lev p)%nat).
  Proof. intros P Q. destruct e; cbn [level lv] in *; try (destruct p; try discriminate P; cbn; lia). destruct p, p0; try discriminate P; try discriminate Q; cbn; lia. Qed.
  Record good (e : exp) : Prop := {
    g_yields : forall s r, text e s -> joins s r = true -> fol (lv e) r ->
      yields (Rul (rule_at (lv e))) (s ++ r) r (SSrc (stm e));
    g_loop : (lv e <> 0)%nat -> lv e <> 9%nat -> forall s r, text e s -> joins s r = true -> fol (lv e - 1) r ->
      loop (lv e) (s ++ r) r (SSrc (stm e));
    g_chain : receiver e -> forall s r, text e s -> joins s r = true -> tight r -> (open_end e = true -> shut r) ->
      chain (s ++ r) r (emb e) }.
  Lemma lv_le e : (lv e <= 10)%nat.
  Proof. destruct e; cbn [lv]; try lia. destruct p; cbn; lia. Qed.
  (** at any level above *)
  Lemma good_at e m s r : good e -> (lv e <= m)%nat -> (m <= 10)%nat -> text e s -> joins s r = true -> fol m r ->
    yields (Rul (rule_at m)) (s ++ r) r (SSrc (stm e)).
  Proof.
    intros G L M T J F. apply (lift _ _ (lv e)); [exact L | exact M | |].
    - apply (g_yields _ G); [exact T | exact J | exact (fol_le _ _ _ F L)].
    - intros j K. apply (f_alts _ _ F). lia.
  Qed.
  Lemma good_loop e m s r : good e -> (lv e <= m)%nat -> (1 <= m <= 10)%nat -> m <> 9%nat -> text e s -> joins s r = true -> fol (m - 1) r ->
    loop m (s ++ r) r (SSrc (stm e)).
  Proof.
    intros G L M M9 T J F. destruct (Nat.eq_dec (lv e) m) as [E|E].
    - subst m. apply (g_loop _ G); assumption || lia.
    - destruct m as [|m]; [lia|]. replace (S m - 1)%nat with m in F by lia. apply loop_base; [lia | lia|]. apply good_at; assumption || lia.
  Qed.
  Lemma chain_good e : lv e = 0%nat -> bare e = false -> 
    (forall s r, text e s -> joins s r = true -> tight r -> (open_end e = true -> shut r) -> chain (s ++ r) r (emb e)) -> good e.
  Proof.
    intros L B C. constructor.
    - intros s r T J F. rewrite L. cbn [rule_at]. unfold stm, wrap. rewrite B.
      replace (match emb e with [t] => S1 EXPR (STup (emb e)) | _ => S1 EXPR (STup (emb e)) end) with (S1 EXPR (STup (emb e))) by (destruct (emb e) as [|t [|t' l]]; reflexivity).
      apply chain_end; [|apply (e_call _ (f_ends _ _ F))].
      apply C; [exact T | exact J | apply (f_ends _ _ F) | intros _; apply (f_ends _ _ F)].
    - intros H. lia.
    - intros _. exact C.
  Qed.
  (** a call of a name at the start *)
  Lemma chain_name x s r1 r2 r3 v b : name_at str x s r1 -> base r1 -> opt_args str dbl r1 r2 v -> opt_block str dbl r2 r3 b ->
    tight r3 -> chain (s ++ r1) r3 [MsgOf x v b].
  Proof.
    intros N B A O T. apply chain_atom; [exact (plain_name _ _ _ N)| |apply T..].
    eapply y_atom_name; [exact N | exact B|]. eapply y_call_name; [apply (y_name _ _ x); assumption | exact A | exact O].
  Qed.
  Lemma no_args r : shut r -> opt_args str dbl r r SNil.
  Proof. intros S. split; [apply S|]. left. repeat split. apply S. Qed.
  Lemma no_block r : tight r -> opt_block str dbl r r SNil.
  Proof. intros T. left. repeat split; apply T. Qed.
  Lemma list_args es s r : good_body es -> paren (body es) s -> joins s r = true -> base r -> opt_args str dbl (s ++ r) r (ListOf (stms es)).
  Proof.
    intros G P J B. destruct (good_paren _ _ _ G P J B) as (s' & E & Y). split; [subst s; cbn [app]; pf [40]|]. right. exact Y.
  Qed.
  Lemma a_block es s r : good_body es -> blk (body es) s -> joins s r = true -> base r -> opt_block str dbl (s ++ r) r (BlockOf (stms es)).
  Proof. intros G P J B. destruct (good_blk _ _ _ G P J B) as (s' & E & Y). right. exact Y. Qed.
  Lemma no_args_blk s r : (exists s', s = 58 :: s') -> opt_args str dbl (s ++ r) (s ++ r) SNil.
  Proof. intros (s' & ->). cbn [app]. split; [pf [58]|]. left. repeat split. pf [58]. Qed.
  Lemma tight_paren es s r : good_body es -> paren (body es) s -> joins s r = true -> base r -> fails (Rul r_block) r -> tight (s ++ r).
  Proof.
    intros G P J B F. destruct (good_paren _ _ _ G P J B) as (s' & E & Y).
    constructor; [apply paren_base; eauto|..]; try (subst s; cbn [app]; pf [40]). exact (closure_list _ _ _ _ _ Y F).
  Qed.

  (** ** Statements *)
  Lemma star_more (I M J : pst -> pst -> Prop) a k r0 r1 q : does I a r0 r1 M -> does M (Star a >> k) r1 q J -> does I (Star a >> k) r0 q J.
  Proof.
    intros X D be.
    destruct (X be) as (n1 & be1 & l1 & E1 & X1). destruct (D be1) as (n2 & be2 & l2 & E2 & X2).
    destruct n2 as [|n2]; [discriminate E2|]. remember (Star a) as sa eqn:Esa. cbn [run] in E2.
    destruct (grun n2 sa r1 be1) as [[s3 b3 t3|b3]|] eqn:E3; try discriminate.
    destruct (grun n2 k s3 b3) as [[s4 b4 t4|b4]|] eqn:E4; try discriminate.
    injection E2 as <- <- <-.
    set (m := Nat.max n1 n2). exists (S (S m)), b4, ((l1 ++ t3) ++ t4). split.
    - remember (S m) as m1. cbn [run]. subst m1.
      assert (A : grun (S m) sa r0 be = Some (Match s3 b3 (l1 ++ t3))).
      { rewrite Esa at 1. cbn [run]. rewrite (run_le _ _ n1 m _ _ _ _ ltac:(lia) E1). rewrite <- Esa.
        rewrite (run_le _ _ n2 m _ _ _ _ ltac:(lia) E3). reflexivity. }
      rewrite A. rewrite (run_le _ _ n2 (S m) _ _ _ _ ltac:(lia) E4). reflexivity.
    - intros b st L. destruct (X1 b st L) as (st1 & Y1 & Z1). destruct (X2 b st1 Z1) as (st2 & Y2 & Z2).
      exists st2. split; [|exact Z2]. rewrite <- app_assoc. rewrite (exec_app_ok _ _ _ _ _ _ Y1). exact Y2.
  Qed.
  Definition item : gpe := Rul r_sep >> Var (-1) r_stmt >> Act (APush (-2) (-1)).
  Definition has (l : list src) (b st : pst) : Prop := holds2 (STup l) b st /\ yy st = STup l.
  Definition more (es : exps) : lang := match es with Nil => maybe separator | _ => separator ^^ body es end.
  Definition good_more (es : exps) : Prop := forall s r acc, more es s -> ends_stmts r -> joins s r = true ->
    does (has acc) (Star item >> Opt (Rul r_sep)) (s ++ r) r (has (acc ++ stms es)).
  Lemma ends_sep r : ends_stmts r -> fails (Rul r_sep) r /\ fails (Rul r_stmt) r /\ heads no_sep r = true /\ fails (Var (-2) r_stmt) r.
  Proof.
    intros [H _]. destruct r as [|c r].
    - repeat split; try (apply (prun_fails_eof 200); vm_compute; reflexivity).
    - destruct H as [-> | ->]; repeat split; try pf [41]; try pf [46].
  Qed.
  Lemma separator_head s : separator s -> exists c t, s = c :: t /\ (c = 44 \/ c = 10 \/ c = 13).
  Proof. intros (g & _ & [->|[->| ->]]); eexists; eexists; split; try reflexivity; tauto. Qed.
  Lemma more_closes es s r : more es s -> ends_stmts r -> closes (s ++ r).
  Proof.
    intros M [H F]. assert (S : s = [] \/ exists a b, s = a ++ b /\ separator a).
    { destruct es as [|e es]; cbn [more] in M.
      - destruct M as [->|M]; [left; reflexivity|]. right. exists s, []. rewrite app_nil_r. auto.
      - destruct M as (a & b & -> & A & _). right. eauto. }
    destruct S as [->|(a & b & -> & A)].
    - split; [|exact F]. cbn [app]. destruct r as [|c r]; [exact Logic.I|]. cbn [In]. destruct H as [-> | ->]; tauto.
    - destruct (separator_head a A) as (c & t & -> & C). split; [cbn [app In]; lia|]. cbn [app no_frac].
      destruct C as [->|[->| ->]]; exact Logic.I.
  Qed.
  Lemma good_stmt e s r : good e -> text e s -> joins s r = true -> closes r -> yields (Rul r_stmt) (s ++ r) r (SSrc (stm e)).
  Proof. intros G T J C. apply (good_at e 10); try assumption; [apply lv_le | lia | apply (fol_closes str dbl), C]. Qed.
  Lemma good_more_nil : good_more Nil.
  Proof.
    intros s r acc M E J. cbn [stms]. rewrite app_nil_r. destruct (ends_sep r E) as (F1 & F2 & F3 & _).
    cbn [more] in M. destruct M as [->|M].
    - cbn [app]. eapply does_seq; [apply does_star0, fails_seq1, F1 | apply does_opt0, F1].
    - eapply does_seq; [apply does_star0 | apply does_opt1, skips_does, skips_sep; assumption].
      eapply (fails_seq2 str dbl) with (I := fun _ _ => False); [apply skips_does, skips_sep; eassumption|].
      apply fails_seq1, fails_var, F2.
  Qed.
  Lemma good_more_cons e es : good e -> good_more es -> good_more (Cons e es).
  Proof.
    intros G H s r acc M E J. cbn [more] in M.
    destruct (cat_inv _ _ _ _ M J) as (a & b & -> & A & B & J1 & J2).
    cbn [TextSpec.body] in B. destruct (cat_inv _ _ _ _ B J2) as (c & d & -> & C & D & J3 & J4). fold (more es) in D.
    rewrite <- !app_assoc. eapply star_more with (M := has (acc ++ [stm e])).
    - eapply skips_does_seq; [apply skips_sep; [exact A|]; apply starts_heads; [eapply text_starts; exact C | intros x X; apply startc_cases in X; tauto]|].
      eapply does_seq with (M := fr 2 (fun v => v (-2) = STup acc /\ v (-1) = SSrc (stm e))).
      + apply (does_conseq str dbl (holds2 (STup acc)) _ (fr 2 (fun v => v (-2) = STup acc /\ v (-1) = SSrc (stm e)))); [|intros ? ? K; apply K | auto].
        apply (does_var' str dbl 2 (fun v => v (-2) = STup acc) (fun v => v (-2) = STup acc /\ v (-1) = SSrc (stm e)) (-1) r_stmt _ _ (SSrc (stm e)));
          [apply good_stmt; [exact G | exact C | exact J3 | eapply more_closes; eassumption] | lia | lia |].
        intros v1 v2 K1 K2 K3. rewrite K3 by lia. auto.
      + apply does_act. intros t bb st (L1 & L2 & L3 & L4). cbn [do_act]. rewrite L3, L4. cbn [push]. eexists. split; [reflexivity|].
        split; [|reflexivity]. split; [exact L1|]. split.
        * intros i Hi. cbn [set_yy set_val vals top]. unfold upd_val. replace (i =? top st + -2) with false by lia. apply L2, Hi.
        * change (val (set_val (-2) (STup (acc ++ [stm e])) st) (-2) = STup (acc ++ [stm e])). rewrite val_set. reflexivity.
    - replace (acc ++ stms (Cons e es)) with ((acc ++ [stm e]) ++ stms es) by (rewrite <- app_assoc; reflexivity).
      apply H; assumption.
  Qed.
  Lemma good_body_nil : good_body Nil.
  Proof.
    intros s r B E J. cbn in B. unfold empty in B. subst s. cbn [app stms tup_of]. destruct (ends_sep r E) as (F1 & F2 & F3 & F4).
    apply yields_rul. cbn [grammar nvars]. apply does_alt2; [apply fails_seq1, F4|].
    eapply skips_does_seq; [exact (skips_str str dbl [] r)|]. apply does_ret'. intros t st _. reflexivity.
  Qed.
  Lemma good_body_cons e es : good e -> good_more es -> good_body (Cons e es).
  Proof.
    intros G H s r B E J. cbn [TextSpec.body] in B. destruct (cat_inv _ _ _ _ B J) as (c & d & -> & C & D & J3 & J4). fold (more es) in D.
    rewrite <- app_assoc. apply yields_rul. cbn [grammar nvars]. apply does_alt1.
    eapply does_seq; [apply does_var2, good_stmt; [exact G | exact C | exact J3 | eapply more_closes; eassumption]|].
    eapply does_seq with (M := has [stm e]).
    - apply does_act. intros t bb st (L1 & L2 & L3). cbn [do_act]. rewrite L3. cbn [tup]. eexists. split; [reflexivity|].
      split; [|reflexivity]. split; [exact L1|]. split.
      + intros i Hi. cbn [set_yy set_val vals top]. unfold upd_val. replace (i =? top st + -2) with false by lia. apply L2, Hi.
      + change (val (set_val (-2) (STup [stm e]) st) (-2) = STup [stm e]). rewrite val_set. reflexivity.
    - eapply (does_conseq str dbl (has [stm e])); [apply (H d r [stm e] D E J4) | auto |].
      intros b st ((K1 & K2 & K3) & K4). split; [exact K1|]. split; [exact K2 | exact K4].
  Qed.

  (** ** Licks *)
  Definition litem : gpe := Rul r_sep >> Var (-1) r_lick_item >> Act (APush (-2) (-1)).
  Definition item1 (e : exp) : lang :=
    match e with
    | ELick n ps =>
        name str n ^^
        match ps with
        | Nil => empty
        | Cons a Nil =>
            match a with ELit v => literal str v | EList l => brack (items str l) | _ => fun _ => False end
        | Cons a (Cons b Nil) =>
            match a, b with
            | ELit v, EList l => if v =? PN_NIL then paren (body l) else either_order (literal str v) (paren (body l))
            | EList c, EList l => either_order (brack (items str c)) (paren (body l))
            | _, _ => fun _ => False
            end
        | _ => fun _ => False
        end
    | _ => fun _ => False
    end.
  Definition inner (e : exp) : lang := match e with ELit v => literal str v | EList l => brack (items str l) | _ => fun _ => False end.
  Definition imore (es : exps) : lang := match es with Nil => maybe separator | _ => separator ^^ items str es end.
  Definition good_items (es : exps) : Prop := forall s r, items str es s -> lick_close r -> joins s r = true ->
    yields (Rul r_lick_items) (s ++ r) r (tup_of (stms es)).
  Definition good_imore (es : exps) : Prop := forall s r acc, imore es s -> lick_close r -> joins s r = true ->
    does (has acc) (Star litem >> Opt (Rul r_sep)) (s ++ r) r (has (acc ++ stms es)).
  Definition good_item (e : exp) : Prop := forall s r, item1 e s -> item_end r -> joins s r = true ->
    yields (Rul r_lick_item) (s ++ r) r (SSrc (stm e)).
  Definition good_inner (e : exp) : Prop := forall s r, inner e s -> base r -> joins s r = true ->
    starts s /\ fails (Rul r_list) (s ++ r) /\ yields (Rul r_value) (s ++ r) r (one (emb e)).
  Definition good_attrs (e : exp) : Prop := match e with EList l => good_body l | _ => True end.

  Lemma litem_starts e s : item1 e s -> starts s.
  Proof. destruct e; try contradiction. cbn [item1]. intros H. eapply cat_starts; [exact H|]. intros a. apply name_starts. Qed.
  Lemma litem_letter e s : item1 e s -> exists c t, s = c :: t /\ letter c = true.
  Proof.
    destruct e; try contradiction. cbn [item1]. intros (a & b & -> & (w & W & _ & g & _ & ->) & _).
    destruct (ident_q_parts w W) as (c & u & q & -> & C & _). exists c. eexists. split; [reflexivity | exact C].
  Qed.
  Lemma items_opener es s r : items str es s -> heads no_nl r = true -> heads no_nl (s ++ r) = true.
  Proof.
    intros B R. destruct es as [|e es]; [cbn in B; rewrite B; exact R|].
    apply starts_heads; [|intros c C; apply startc_cases in C; tauto].
    cbn [TextSpec.items] in B. fold (item1 e) in B. eapply cat_starts; [exact B|]. apply litem_starts.
  Qed.
  Lemma good_brack es s r : good_items es -> brack (items str es) s -> joins s r = true -> heads no_gap r = true ->
    exists s', s = 91 :: s' /\ yields (Rul r_value) (s ++ r) r (ListOf (stms es)).
  Proof.
    intros GB P J B. destruct (cat_inv _ _ _ _ P J) as (a & b & -> & (g & G & ->) & Pb & J1 & J2).
    destruct (cat_inv _ _ _ _ Pb J2) as (c & d & -> & Bc & (g2 & G2 & ->) & J3 & J4).
    exists (g ++ c ++ [93] ++ g2). split; [reflexivity|].
    replace (([91] ++ g) ++ c ++ [93] ++ g2) with (91 :: g ++ c ++ 93 :: g2) by reflexivity.
    replace ((91 :: g ++ c ++ 93 :: g2) ++ r) with (91 :: g ++ c ++ 93 :: g2 ++ r) by (cbn [app]; rewrite <- !app_assoc; cbn [app]; reflexivity).
    unfold ListOf. fold (tup_of (stms es)). apply y_lick; try assumption.
    - apply (items_opener es); [exact Bc | reflexivity].
    - apply GB; [exact Bc | | exact J3]. exists g2, r. auto.
  Qed.
  Lemma lick_close_fails r : lick_close r -> fails (Rul r_sep) r /\ fails (Rul r_lick_item) r /\ heads no_sep r = true /\ heads no_open r = true /\ fails (Var (-2) r_lick_item) r.
  Proof.
    intros H.
    assert (L : fails (Rul r_lick_item) r).
    { pose proof (item_loose str dbl r (or_introl H)) as L. destruct H as (g & r' & -> & _ & _). apply fails_rul. cbn [grammar].
      do 5 (apply fails_alt; [pf [93]|]). apply fails_seq1, fails_var, L. }
    pose proof (fails_var (-2) _ _ L) as L2.
    destruct H as (g & r' & -> & G & R). repeat split; try assumption. pf [93].
  Qed.
  Lemma imore_ends es s r : imore es s -> lick_close r -> item_end (s ++ r).
  Proof.
    intros M H. destruct (lick_close_fails r H) as (_ & _ & H1 & H2 & _). destruct es as [|e es]; cbn [imore] in M.
    - destruct M as [->|M]; [left; exact H|]. right. exists s, r. auto.
    - destruct M as (a & b & -> & A & B & _). right. exists a, (b ++ r). rewrite <- app_assoc. split; [reflexivity|]. split; [exact A|].
      cbn [TextSpec.items] in B. fold (item1 e) in B. destruct B as (c & d & -> & C & _). destruct (litem_letter _ _ C) as (x & t & -> & X).
      cbn [app heads]. unfold letter, between in X. unfold no_sep, no_nl, no_gap, blank, no_open. lia.
  Qed.
  Lemma good_imore_nil : good_imore Nil.
  Proof.
    intros s r acc M E J. cbn [stms]. rewrite app_nil_r. destruct (lick_close_fails r E) as (F1 & F2 & F3 & _).
    cbn [imore] in M. destruct M as [->|M].
    - cbn [app]. eapply does_seq; [apply does_star0, fails_seq1, F1 | apply does_opt0, F1].
    - eapply does_seq; [apply does_star0 | apply does_opt1, skips_does, skips_sep; assumption].
      eapply (fails_seq2 str dbl) with (I := fun _ _ => False); [apply skips_does, skips_sep; eassumption|].
      apply fails_seq1, fails_var, F2.
  Qed.
  Lemma good_imore_cons e es : good_item e -> good_imore es -> good_imore (Cons e es).
  Proof.
    intros G H s r acc M E J. cbn [imore] in M.
    destruct (cat_inv _ _ _ _ M J) as (a & b & -> & A & B & J1 & J2).
    cbn [TextSpec.items] in B. fold (item1 e) in B. destruct (cat_inv _ _ _ _ B J2) as (c & d & -> & C & D & J3 & J4). fold (imore es) in D.
    rewrite <- !app_assoc. eapply star_more with (M := has (acc ++ [stm e])).
    - eapply skips_does_seq; [apply skips_sep; [exact A|]; apply starts_heads; [eapply litem_starts; exact C | intros x X; apply startc_cases in X; tauto]|].
      eapply does_seq with (M := fr 2 (fun v => v (-2) = STup acc /\ v (-1) = SSrc (stm e))).
      + apply (does_conseq str dbl (holds2 (STup acc)) _ (fr 2 (fun v => v (-2) = STup acc /\ v (-1) = SSrc (stm e)))); [|intros ? ? K; apply K | auto].
        apply (does_var' str dbl 2 (fun v => v (-2) = STup acc) (fun v => v (-2) = STup acc /\ v (-1) = SSrc (stm e)) (-1) r_lick_item _ _ (SSrc (stm e)));
          [apply G; [exact C | eapply imore_ends; eassumption | exact J3] | lia | lia |].
        intros v1 v2 K1 K2 K3. rewrite K3 by lia. auto.
      + apply does_act. intros t bb st (L1 & L2 & L3 & L4). cbn [do_act]. rewrite L3, L4. cbn [push]. eexists. split; [reflexivity|].
        split; [|reflexivity]. split; [exact L1|]. split.
        * intros i Hi. cbn [set_yy set_val vals top]. unfold upd_val. replace (i =? top st + -2) with false by lia. apply L2, Hi.
        * change (val (set_val (-2) (STup (acc ++ [stm e])) st) (-2) = STup (acc ++ [stm e])). rewrite val_set. reflexivity.
    - replace (acc ++ stms (Cons e es)) with ((acc ++ [stm e]) ++ stms es) by (rewrite <- app_assoc; reflexivity).
      apply H; assumption.
  Qed.
  Lemma good_items_nil : good_items Nil.
  Proof.
    intros s r B E J. cbn in B. unfold empty in B. subst s. cbn [app stms tup_of]. destruct (lick_close_fails r E) as (_ & _ & _ & _ & F4).
    apply yields_rul. cbn [grammar nvars]. apply does_alt2; [apply fails_seq1, F4|].
    eapply skips_does_seq; [exact (skips_str str dbl [] r)|]. apply does_ret'. intros t st _. reflexivity.
  Qed.
  Lemma good_items_cons e es : good_item e -> good_imore es -> good_items (Cons e es).
  Proof.
    intros G H s r B E J. cbn [TextSpec.items] in B. fold (item1 e) in B. destruct (cat_inv _ _ _ _ B J) as (c & d & -> & C & D & J3 & J4). fold (imore es) in D.
    rewrite <- app_assoc. apply yields_rul. cbn [grammar nvars]. apply does_alt1.
    eapply does_seq; [apply does_var2, G; [exact C | eapply imore_ends; eassumption | exact J3]|].
    eapply does_seq with (M := has [stm e]).
    - apply does_act. intros t bb st (L1 & L2 & L3). cbn [do_act]. rewrite L3. cbn [tup]. eexists. split; [reflexivity|].
      split; [|reflexivity]. split; [exact L1|]. split.
      + intros i Hi. cbn [set_yy set_val vals top]. unfold upd_val. replace (i =? top st + -2) with false by lia. apply L2, Hi.
      + change (val (set_val (-2) (STup [stm e]) st) (-2) = STup [stm e]). rewrite val_set. reflexivity.
    - eapply (does_conseq str dbl (has [stm e])); [apply (H d r [stm e] D E J4) | auto |].
      intros b st ((K1 & K2 & K3) & K4). split; [exact K1|]. split; [exact K2 | exact K4].
  Qed.

  (** ** The cases *)
  Lemma text_op e s : text e s -> match e with EBin q _ _ => src_op q = true | _ => True end.
  Proof. destruct e; try exact (fun _ => Logic.I). intros ((P & _) & _). exact P. Qed.
  Lemma level_lv0 e s : text e s -> level e = 0 -> lv e = 0%nat.
  Proof. intros T L. pose proof (text_op _ _ T) as P. destruct e; cbn [level lv] in *; try lia. destruct p; try discriminate P; cbn in L; lia. Qed.
  Lemma level_lv9 e : level e < 8 -> (lv e <= 9)%nat.
  Proof. destruct e; cbn [level lv]; try lia. destruct p; cbn; lia. Qed.
  Lemma good_named e x : lv e = 0%nat -> bare e = false -> open_end e = true -> emb e = [MsgOf x SNil SNil] ->
    (forall s, text e s -> name str x s) -> good e.
  Proof.
    intros L B O E H. apply chain_good; [exact L | exact B|]. intros s r T J Tr Sh. rewrite E. specialize (Sh O).
    eapply chain_name; [apply name_name_at; [apply H, T | exact J] | apply Tr | apply no_args, Sh | apply no_block, Tr | exact Tr].
  Qed.
  Lemma good_var x : good (EVar x).
  Proof. apply (good_named _ x); try reflexivity. intros s H. exact H. Qed.
  Lemma call_path n s r : path_at str n s r -> shut r -> yields (Rul r_call) (s ++ r) r (SSrc (Src PATH (SVal n) SNil SNil)).
  Proof.
    intros P Sh. eapply y_call_name; [apply y_path_name; [exact P | apply Sh] | apply no_args, Sh | apply no_block, Sh].
  Qed.
  Lemma good_path n : good (EPath n).
  Proof.
    apply chain_good; [reflexivity..|]. intros s r T J Tr Sh. specialize (Sh eq_refl). cbn [TextSpec.text] in T.
    pose proof (path_path_at str n s r T J) as P.
    apply chain_atom; [exact (plain_path _ _ _ P) | | apply Tr..]. eapply y_atom_path; [exact P|]. apply call_path; assumption.
  Qed.
  Lemma good_bin p a b : good a -> good b -> good (EBin p a b).
  Proof.
    intros Ga Gb.
    assert (X : forall s r, text (EBin p a b) s -> joins s r = true -> fol (op_lev p - 1) r -> loop (op_lev p) (s ++ r) r (SSrc (stm (EBin p a b)))).
    { intros s r ((P & L1 & L2) & T) J F.
      destruct (cat_inv _ _ _ _ T J) as (sa & t1 & -> & Ta & T1 & J1 & J2).
      destruct (cat_inv _ _ _ _ T1 J2) as (so & sb & -> & (g & G & N & ->) & Tb & J3 & J4).
      rewrite <- !app_assoc in *.
      destruct (gap_head str dbl g G N) as (c & g' & Eg & C).
      destruct (lv_level a p P (text_op _ _ Ta)) as [_ La]. destruct (lv_level b p P (text_op _ _ Tb)) as [Lb _].
      assert (O : heads no_nl (sb ++ r) = true) by (apply starts_heads; [eapply text_starts; exact Tb | intros x Hx; apply startc_cases in Hx; tauto]).
      assert (K : (1 <= op_lev p <= 8)%nat) by (destruct p; try discriminate P; cbn; lia).
      eapply loop_step.
      - apply (good_loop a (op_lev p)); [exact Ga | apply La, L1 | lia | lia | exact Ta | exact J1|].
        subst g. cbn [app]. apply (fol_op str dbl); assumption.
      - unfold stm at 2. cbn [emb wrap bare]. apply op_step; try assumption.
        apply good_at; [exact Gb | apply Lb, L2 | lia | exact Tb | exact J4 | exact F]. }
    constructor; cbn [lv].
    - intros s r T J F. destruct T as ((P & L1 & L2) & T).
      assert (K : (1 <= op_lev p <= 8)%nat) by (destruct p; try discriminate P; cbn; lia).
      apply loop_end; [apply X; [exact (conj (conj P (conj L1 L2)) T) | exact J | apply (fol_le _ _ _ F); lia] | apply (f_alts _ _ F); lia].
    - intros _ _. exact X.
    - intros R s r T. exfalso. destruct T as ((P & _) & _). cbn [receiver level] in R. destruct p; try discriminate P; cbn in R; lia.
  Qed.
  Lemma good_bool (e a b : exp) p w : (p = AND /\ w = s_and) \/ (p = OR /\ w = s_or) -> lv e = 10%nat -> level e = 8 ->
    (forall s, text e s -> level b < 8 /\ (text a ^^ oper w ^^ text b) s) -> stm e = Src p (SSrc (stm a)) (SSrc (stm b)) SNil ->
    good a -> good b -> good e.
  Proof.
    intros W Le Lv HT Es Ga Gb.
    assert (X : forall s r, text e s -> joins s r = true -> fol 9 r -> loop 10 (s ++ r) r (SSrc (stm e))).
    { intros s r T J F. destruct (HT s T) as (L2 & T').
      destruct (cat_inv _ _ _ _ T' J) as (sa & t1 & -> & Ta & T1 & J1 & J2).
      destruct (cat_inv _ _ _ _ T1 J2) as (so & sb & -> & (g & G & N & ->) & Tb & J3 & J4).
      rewrite <- !app_assoc in *.
      pose proof (text_starts str _ _ Tb) as Sb.
      assert (O : heads no_nl (sb ++ r) = true) by (apply starts_heads; [exact Sb | intros x Hx; apply startc_cases in Hx; tauto]).
      assert (Q : heads (fun c => negb (c =? 61)) (sb ++ r) = true) by (apply starts_heads; [exact Sb | intros x Hx; apply startc_cases in Hx; tauto]).
      eapply loop_step.
      - apply (good_loop a 10); [exact Ga | apply lv_le | lia | lia | exact Ta | exact J1|].
        apply (fol_bool str dbl); try assumption. destruct W as [(_ & W)|(_ & W)]; tauto.
      - rewrite Es. apply bool_step; try assumption.
        apply (good_at b 9); [exact Gb | apply level_lv9, L2 | lia | exact Tb | exact J4 | exact F]. }
    constructor; rewrite ?Le.
    - intros s r T J F. apply loop_end; [apply X; [exact T | exact J | apply (fol_le _ _ _ F); lia] | apply (f_alts _ _ F); lia].
    - intros _ _. exact X.
    - intros R. exfalso. destruct e; cbn [receiver level] in *; lia || contradiction.
  Qed.
  Lemma lines_61 g s : lines g -> heads (fun c => negb (c =? 61)) s = true -> heads (fun c => negb (c =? 61)) (g ++ s) = true.
  Proof. intros [|c g' B _|g' _|g' _|t g' _ _] H; [exact H|..]; cbn [app heads]; [unfold blank in B|..]; lia. Qed.
  Lemma good_assign (e a b : exp) : lv e = 9%nat -> level e = 7 ->
    (forall s, text e s -> level b < 8 /\ (text a ^^ tokn [61] ^^ text b) s) -> stm e = Src ASSIGN (SSrc (stm a)) (SSrc (stm b)) SNil ->
    lv a = 0%nat -> good a -> good b -> good e.
  Proof.
    intros Le Lv HT Es La Ga Gb. constructor; rewrite ?Le; try lia.
    - intros s r T J F. destruct (HT s T) as (L2 & T').
      destruct (cat_inv _ _ _ _ T' J) as (sa & t1 & -> & Ta & T1 & J1 & J2).
      destruct (cat_inv _ _ _ _ T1 J2) as (so & sb & -> & (g & G & ->) & Tb & J3 & J4).
      rewrite <- !app_assoc in *. cbn [app] in *.
      pose proof (text_starts str _ _ Tb) as Sb.
      rewrite Es. cbn [rule_at]. eapply y_assign.
      + exact G.
      + apply starts_heads; [exact Sb | intros x Hx; apply startc_cases in Hx; tauto].
      + apply (good_at a 8); [exact Ga | lia | lia | exact Ta | exact J1|].
        apply (fol_assign str dbl), lines_61; [exact G|]. apply starts_heads; [exact Sb | intros x Hx; apply startc_cases in Hx; tauto].
      + apply (good_at b 9); [exact Gb | apply level_lv9, L2 | lia | exact Tb | exact J4 | exact F].
    - intros R. exfalso. destruct e; cbn [receiver level] in *; lia || contradiction.
  Qed.
  Lemma good_unary (e a : exp) p : lv e = 0%nat -> bare e = false -> ~ receiver e -> emb e = [Src p (SSrc (stm a)) SNil SNil] ->
    (forall s r, text e s -> joins s r = true -> fol 0 r -> chain (s ++ r) r [Src p (SSrc (stm a)) SNil SNil]) -> good e.
  Proof.
    intros L B R E C. constructor; rewrite ?L; [|lia|contradiction].
    intros s r T J F. cbn [rule_at]. unfold stm, wrap. rewrite E, B. apply chain_end; [apply C; assumption | apply F].
  Qed.
  Lemma good_not a : good a -> good (ENot a).
  Proof.
    intros G. apply (good_unary (ENot a) a NOT); try reflexivity; [intros K; exact K|].
    intros s r (L & T) J F. destruct (cat_inv _ _ _ _ T J) as (so & sa & -> & (g & Hg & N & ->) & Ta & J1 & J2).
    rewrite <- !app_assoc. apply y_not; try assumption.
    - apply starts_heads; [eapply text_starts; exact Ta | intros x Hx; apply startc_cases in Hx; tauto].
    - apply (gap_stops str dbl); assumption.
    - pose proof (level_lv0 _ _ Ta L) as E. pose proof (g_yields _ G sa r Ta J2) as Y. rewrite E in Y. apply Y, F.
  Qed.
  Lemma good_bitn a : good a -> good (EBitn a).
  Proof.
    intros G. apply (good_unary (EBitn a) a WAVY); try reflexivity; [intros K; exact K|].
    intros s r (L & T) J F. destruct (cat_inv _ _ _ _ T J) as (so & sa & -> & (g & Hg & ->) & Ta & J1 & J2).
    rewrite <- !app_assoc. cbn [app]. apply y_bitn; try assumption.
    - apply starts_heads; [eapply text_starts; exact Ta | intros x Hx; apply startc_cases in Hx; tauto].
    - pose proof (level_lv0 _ _ Ta L) as E. pose proof (g_yields _ G sa r Ta J2) as Y. rewrite E in Y. apply Y, F.
  Qed.
  Lemma lit_value v s r : literal str v s -> joins s r = true -> base r -> yields (Rul r_value) (s ++ r) r (SSrc (ValOf v)).
  Proof.
    intros (w & (g & G & ->) & W) J B. change (lit_word str v w) in W.
    pose proof (base_gap _ B) as B3. destruct B as [B1 B2]. rewrite <- app_assoc. apply y_value_lit; try assumption.
    - apply NK.
    - intros c t E C. eapply joins_stops; eassumption.
    - eapply heads_imp; [exact B1|]. intros c. unfold okc. lia.
  Qed.
  Lemma good_lit v : good (ELit v).
  Proof.
    apply chain_good; [reflexivity..|]. intros s r T J Tr _. cbn [TextSpec.text emb] in *.
    apply chain_atom; [| apply y_atom_value, lit_value; [exact T | exact J | apply Tr] | apply Tr..].
    destruct T as (w & (g & G & ->) & W). change (lit_word str v w) in W. rewrite <- app_assoc. apply (plain_lit v), W.
  Qed.
  Lemma literal_starts v s : literal str v s -> starts s.
  Proof. exact (text_starts str (ELit v) s). Qed.
  Lemma list_lit v w r : lit_word str v w -> fails (Rul r_list) (w ++ r).
  Proof.
    intros W.
    assert (D : forall d t, digit d = true -> fails (Rul r_list) (d :: t)).
    { intros d t D. apply fails_rul. cbn [grammar]. apply fails_seq1, misses_fails, misses_rul. cbn [grammar]. apply misses_seq1, misses_chr.
      unfold digit, between in D. lia. }
    destruct W as [(_ & ->)|[(_ & ->)|[(_ & ->)|[(n & B & _ & ->)|(l & _ & _ & ->)]]]].
    - pf [110; 105; 108].
    - pf [116; 114; 117; 101].
    - pf [102; 97; 108; 115; 101].
    - destruct (ld_shape n B) as [(-> & ->)|(d & ds & -> & K & _)]; cbn [app]; apply D; [reflexivity|]. unfold digit, between. lia.
    - unfold quoted. cbn [app]. pf [39].
  Qed.
  Lemma good_inner_lit v : good_inner (ELit v).
  Proof.
    intros s r T B J. cbn [inner emb one] in *. split; [eapply literal_starts; exact T|]. split; [|apply lit_value; assumption].
    destruct T as (w & (g & G & ->) & W). change (lit_word str v w) in W. rewrite <- app_assoc. eapply list_lit; exact W.
  Qed.
  Lemma good_inner_list es : good_items es -> good_inner (EList es).
  Proof.
    intros G s r T B J. cbn [inner] in T. destruct (good_brack _ _ _ G T J (base_gap _ B)) as (s' & E & Y).
    split; [exists 91, s'; split; [exact E | reflexivity]|]. split; [subst s; cbn [app]; pf [91]|].
    replace (one (emb (EList es))) with (ListOf (stms es)) by (destruct es; reflexivity). exact Y.
  Qed.
  Lemma starts_gap s r : starts s -> heads no_gap (s ++ r) = true.
  Proof. intros S. apply starts_heads; [exact S|]. intros c C. apply startc_cases in C. destruct C as (_ & C & _). unfold no_nl in C. lia. Qed.
  Lemma item_end_base r : item_end r -> base r.
  Proof. exact (item_base r). Qed.
  (** inner value and attributes, in either order *)
  Lemma good_both n a (A : lang) l s r : (forall s r, A s -> base r -> joins s r = true -> starts s /\ fails (Rul r_list) (s ++ r) /\ yields (Rul r_value) (s ++ r) r a) ->
    good_body l -> (name str n ^^ either_order A (paren (body l))) s -> item_end r -> joins s r = true ->
    yields (Rul r_lick_item) (s ++ r) r (SSrc (Src LICK (SVal n) a (ListOf (stms l)))).
  Proof.
    intros HA GL T E J. destruct (cat_inv _ _ _ _ T J) as (x & y & -> & N & [K|K] & J1 & J2);
    destruct (cat_inv _ _ _ _ K J2) as (p & q & -> & P & Q & J3 & J4); pose proof (name_name_at str n x _ N J1) as NA; rewrite <- !app_assoc in *.
    - destruct (good_paren l q r GL Q J4 (item_base _ E)) as (q' & Eq & YQ).
      destruct (HA p (q ++ r) P (paren_base q r (paren_head _ Q)) J3) as (S1 & F & Y).
      eapply y_item3; [exact NA | apply starts_gap, S1 | exact F | exact Y | exact YQ].
    - destruct (HA q r Q (item_base _ E) J4) as (S1 & F & Y).
      destruct (good_paren' l p (q ++ r) GL P J3 (starts_gap _ _ S1)) as (p' & Ep & YP).
      eapply y_item4; [exact NA | subst p; reflexivity | exact YP | exact Y].
  Qed.
  Definition head_attrs (es : exps) : Prop := match es with Cons b _ => good_attrs b | Nil => True end.
  Definition parts_ok (es : exps) : Prop := head_attrs es /\ forall n, good_item (ELick n es).
  Lemma parts_nil : parts_ok Nil.
  Proof.
    split; [exact Logic.I|]. intros n s r T E J. cbn [item1] in T. destruct (cat_inv _ _ _ _ T J) as (x & y & -> & N & K & J1 & J2).
    unfold empty in K. subst y. rewrite app_nil_r in *. apply y_item0; [|exact E]. apply name_name_at; assumption.
  Qed.
  Lemma parts_cons a es : good_inner a -> good_attrs a -> head_attrs es -> parts_ok (Cons a es).
  Proof.
    intros GI GA HB. split; [exact GA|]. intros n s r T E J. cbn [item1] in T. destruct es as [|b es].
    - assert (T' : (name str n ^^ inner a) s) by exact T. clear T.
      destruct (cat_inv _ _ _ _ T' J) as (x & y & -> & N & K & J1 & J2). rewrite <- app_assoc.
      destruct (GI y r K (item_base _ E) J2) as (S1 & F & Y).
      pose proof (name_name_at str n x _ N J1) as NA.
      eapply y_item1; [exact NA | apply starts_gap, S1 | exact F | exact Y | exact E].
    - destruct es as [|? ?].
      2: { destruct T as (? & ? & _ & _ & [] & _). }
      assert (Q : match b with EList _ => True | _ => False end).
      { destruct T as (? & ? & _ & _ & K & _). destruct a; try contradiction K; destruct b; try contradiction K; exact Logic.I. }
      destruct b as [| | | | | | | | | | | | | | | |l| | | | | | | | | | | | | | | | |]; try contradiction Q. cbn [head_attrs good_attrs] in HB. clear Q.
      assert (X : one (emb (EList l)) = ListOf (stms l)) by (destruct l; reflexivity).
      destruct a; try (exfalso; destruct T as (? & ? & _ & _ & K & _); exact K).
      + assert (Y : stm (ELick n (Cons (ELit v) (Cons (EList l) Nil))) = Src LICK (SVal n) (if v =? PN_NIL then SNil else one (emb (ELit v))) (ListOf (stms l))).
        { rewrite <- X. reflexivity. }
        rewrite Y. clear Y. destruct (v =? PN_NIL).
        * destruct (cat_inv _ _ _ _ T J) as (x & y & -> & N & K & J1 & J2). rewrite <- app_assoc.
          destruct (good_paren l y r HB K J2 (item_base _ E)) as (y' & Ey & Y).
          pose proof (name_name_at str n x _ N J1) as NA.
          eapply y_item2; [exact NA | subst y; reflexivity | exact Y | exact E].
        * eapply good_both; [exact GI | exact HB | exact T | exact E | exact J].
      + assert (Y : stm (ELick n (Cons (EList es) (Cons (EList l) Nil))) = Src LICK (SVal n) (one (emb (EList es))) (ListOf (stms l))).
        { rewrite <- X. reflexivity. }
        rewrite Y. clear Y. eapply good_both; [exact GI | exact HB | exact T | exact E | exact J].
  Qed.
  (** ** x[..] *)
  Lemma index_lit k s : index str k s -> match k with AVar _ => True | AInt i => literal str (PN_NUM i) s | AKey v => literal str v s end.
  Proof.
    destruct k; cbn [index]; [|exact (fun _ => Logic.I)|].
    - intros (B & T). exists (sprintf_ld i). split; [exact T|]. right; right; right; left. exists i. auto.
    - intros (l & Q & V & T). exists (quoted l). split; [exact T|]. right; right; right; right. exists l. auto.
  Qed.
  Lemma index_msg k s r : index str k s -> match k with AVar _ => True | _ => fails (Rul r_msg) (s ++ r) end.
  Proof.
    assert (F : forall d t, digit d = true -> fails (Rul r_msg) (d :: t)).
    { intros d t D. assert (I : In d digs) by (unfold digit, between in D; unfold digs; cbn [In]; lia).
      refine (all_PF 200 (fun _ => Rul r_msg) (fun c => [c]) digs _ d t I). vm_compute. reflexivity. }
    destruct k; cbn [index]; [|exact (fun _ => Logic.I)|].
    - intros (B & g & _ & ->). destruct (ld_shape i B) as [(-> & ->)|(d & ds & -> & D & _)]; cbn [app]; apply F; [reflexivity|]. unfold digit, between. lia.
    - intros (l & _ & _ & g & _ & ->). unfold quoted. cbn [app]. pf [39].
  Qed.
  Lemma index_starts k s : index str k s -> starts s.
  Proof.
    intros H. pose proof (index_lit k s H) as L. destruct k; [eapply literal_starts; exact L | eapply name_starts; exact H | eapply literal_starts; exact L].
  Qed.
  Lemma good_index k s r : index str k s -> item_end r -> joins s r = true -> yields (Rul r_lick_item) (s ++ r) r (SSrc (key_item k)).
  Proof.
    intros H E J. pose proof (index_lit k s H) as L. pose proof (index_msg k s r H) as F.
    pose proof (base_gap _ (item_base r E)) as G. destruct k; cbn [key_item].
    - apply y_item5; [exact F | apply lit_value; [exact L | exact J | apply item_base, E] | exact G].
    - apply y_item0; [apply name_name_at; assumption | exact E].
    - apply y_item5; [exact F | apply lit_value; [exact L | exact J | apply item_base, E] | exact G].
  Qed.
  Lemma one_item c d r t : yields (Rul r_lick_item) (c ++ d ++ r) (d ++ r) (SSrc t) -> maybe separator d -> lick_close r -> joins d r = true ->
    yields (Rul r_lick_items) (c ++ d ++ r) r (STup [t]).
  Proof.
    intros Y D E J. apply yields_rul. cbn [grammar nvars]. apply does_alt1.
    eapply does_seq; [apply does_var2, Y|].
    eapply does_seq with (M := has [t]).
    - apply does_act. intros t' bb st (L1 & L2 & L3). cbn [do_act]. rewrite L3. cbn [tup]. eexists. split; [reflexivity|].
      split; [|reflexivity]. split; [exact L1|]. split.
      + intros i Hi. cbn [set_yy set_val vals top]. unfold upd_val. replace (i =? top st + -2) with false by lia. apply L2, Hi.
      + change (val (set_val (-2) (STup [t]) st) (-2) = STup [t]). rewrite val_set. reflexivity.
    - eapply (does_conseq str dbl (has [t])); [apply (good_imore_nil d r [t] D E J) | auto |].
      cbn [stms app]. intros b st ((K1 & K2 & K3) & K4). split; [exact K1|]. split; [exact K2 | exact K4].
  Qed.
  Lemma good_index_brack k s r : brack (index str k ^^ maybe separator) s -> joins s r = true -> heads no_gap r = true ->
    exists s', s = 91 :: s' /\ yields (Rul r_lick) (s ++ r) r (SSrc (S1 LIST (STup [key_item k]))).
  Proof.
    intros P J B. destruct (cat_inv _ _ _ _ P J) as (a & b & -> & (g & G & ->) & Pb & J1 & J2).
    destruct (cat_inv _ _ _ _ Pb J2) as (c & d & -> & Bc & (g2 & G2 & ->) & J3 & J4).
    exists (g ++ c ++ [93] ++ g2). split; [reflexivity|].
    replace (([91] ++ g) ++ c ++ [93] ++ g2) with (91 :: g ++ c ++ 93 :: g2) by reflexivity.
    replace ((91 :: g ++ c ++ 93 :: g2) ++ r) with (91 :: g ++ c ++ 93 :: g2 ++ r) by (cbn [app]; rewrite <- !app_assoc; cbn [app]; reflexivity).
    apply y_licks; try assumption.
    - apply starts_heads; [eapply cat_starts; [exact Bc | apply index_starts] | intros x X; apply startc_cases in X; tauto].
    - assert (E : lick_close (93 :: g2 ++ r)) by (exists g2, r; auto).
      change (([93] ++ g2) ++ r) with (93 :: g2 ++ r) in J3.
      destruct (cat_inv _ _ _ _ Bc J3) as (x & y & -> & X & Y & J5 & J6). rewrite <- app_assoc.
      apply one_item; try assumption. apply good_index; [exact X | apply (imore_ends Nil); [exact Y | exact E] | exact J5].
  Qed.
  Lemma good_elem up x k : good (EAt up x k).
  Proof.
    apply chain_good; [reflexivity..|]. intros s r T J Tr _. cbn [TextSpec.text emb] in *.
    destruct (cat_inv _ _ _ _ T J) as (w & b & -> & (W & Hx) & P & J1 & J2).
    destruct (good_index_brack k b r P J2 (base_gap _ (t_base _ Tr))) as (b' & Eb & Y).
    assert (N : name_at str x w (b ++ r)).
    { apply name_name_at; [|exact J1]. exists w. split; [exact W|]. split; [exact Hx|]. exists []. split; [reflexivity | symmetry; apply app_nil_r]. }
    rewrite <- app_assoc. apply chain_atom; [eapply plain_name; exact N | | apply Tr..].
    apply y_atom_value. subst x. apply y_at; [exact W | subst b; reflexivity | exact Y | eapply (immed_name str dbl); exact N | apply base_gap, Tr].
  Qed.
  Lemma good_inc x up post : good (EInc x up post).
  Proof.
    apply chain_good; [reflexivity..|]. intros s r T J Tr Sh. cbn [TextSpec.text emb] in *. destruct post.
    - destruct (cat_inv _ _ _ _ T J) as (a & b & -> & N & (g & G & ->) & J1 & J2).
      rewrite <- !app_assoc in *. pose proof (name_name_at str x a _ N J1) as A.
      apply chain_post with (g := g); [exact (plain_name _ _ _ A) | | exact G | apply base_gap, Tr].
      assert (B : base ((if up then [43; 43] else [45; 45]) ++ g ++ r)) by (destruct up; split; [reflexivity | exact Logic.I | reflexivity | exact Logic.I]).
      eapply y_atom_name; [exact A | exact B|].
      eapply y_call_name with (r2 := (if up then [43; 43] else [45; 45]) ++ g ++ r); [apply (y_name _ _ x); [exact A | exact B]| |].
      + destruct up; (split; [|left; repeat split]); cbn [app]; first [pf [43; 43] | pf [45; 45]].
      + left. destruct up; repeat split; cbn [app]; first [pf [43; 43] | pf [45; 45]].
    - specialize (Sh eq_refl). destruct (cat_inv _ _ _ _ T J) as (a & b & -> & -> & N & J1 & J2).
      pose proof (name_name_at str x b _ N J2) as A.
      assert (Y : yields (Rul r_atom) (b ++ r) r (SSrc (MsgOf x SNil SNil))).
      { eapply y_atom_name; [exact A | apply Tr|]. eapply y_call_name; [apply (y_name _ _ x); [exact A | apply Tr] | apply no_args, Sh | apply no_block, Tr]. }
      rewrite <- app_assoc. destruct A as [(c & u & q & g & E & C & _)]. subst b. cbn [app] in Y |- *. apply chain_pre; [exact C | exact Y].
  Qed.
  Lemma good_list e es : lv e = 0%nat -> bare e = false -> emb e = [S1 LIST (tup_of (stms es))] -> (forall s, text e s -> paren (body es) s \/ brack (items str es) s) ->
    good_body es -> good_items es -> good e.
  Proof.
    intros L B E H G GI. apply chain_good; [exact L | exact B|]. intros s r T J Tr _. rewrite E. destruct (H s T) as [P|P].
    - destruct (good_paren es s r G P J (t_base _ Tr)) as (s' & Es & Y).
      apply chain_atom; [apply plain_paren; eauto | | apply Tr..].
      apply y_atom_list; [subst s; cbn [app]; pf [40] | exact Y | apply Tr].
    - destruct (good_brack es s r GI P J (base_gap _ (t_base _ Tr))) as (s' & Es & Y).
      apply chain_atom; [subst s; cbn [app]; starts_pf [91] | apply y_atom_value; exact Y | apply Tr..].
  Qed.
  Lemma good_pathof e n : good e -> good (EPathOf e n).
  Proof.
    intros G. apply chain_good; [reflexivity..|]. intros s r (R & T) J Tr Sh. specialize (Sh eq_refl).
    destruct (cat_inv _ _ _ _ T J) as (a & b & -> & Ta & P & J1 & J2).
    pose proof (path_path_at str n b r P J2) as A. rewrite <- app_assoc. cbn [emb].
    eapply chain_call; [|apply call_path; [exact A | exact Sh]].
    pose proof (shut_path str _ _ _ A) as S1. apply (g_chain _ G R); [exact Ta | exact J1 | apply S1 | intros _; exact S1].
  Qed.
  Lemma good_send0 e m : good e -> good (ESend0 e m).
  Proof.
    intros G. apply chain_good; [reflexivity..|]. intros s r (R & T) J Tr Sh. specialize (Sh eq_refl).
    destruct (cat_inv _ _ _ _ T J) as (a & b & -> & Ta & N & J1 & J2).
    pose proof (name_name_at str m b r N J2) as A. rewrite <- app_assoc. cbn [emb].
    pose proof (shut_name str dbl _ _ _ A (t_base _ Tr)) as S1.
    eapply chain_call; [apply (g_chain _ G R); [exact Ta | exact J1 | apply S1 | intros _; exact S1]|].
    eapply y_call_name; [apply (y_name _ _ m); [exact A | apply Tr] | apply no_args, Sh | apply no_block, Tr].
  Qed.
  Lemma good_send e m es : good e -> good_body es -> good (ESend e m es).
  Proof.
    intros G Gb. apply chain_good; [reflexivity..|]. intros s r (R & T) J Tr _.
    destruct (cat_inv _ _ _ _ T J) as (a & b & -> & Ta & T1 & J1 & J2).
    destruct (cat_inv _ _ _ _ T1 J2) as (c & d & -> & N & P & J3 & J4).
    rewrite <- !app_assoc in *. cbn [emb].
    pose proof (name_name_at str m c _ N J3) as A.
    assert (B : base (d ++ r)) by (apply paren_base, (paren_head _ P)).
    pose proof (shut_name str dbl _ _ _ A B) as S1.
    eapply chain_call; [apply (g_chain _ G R); [exact Ta | exact J1 | apply S1 | intros _; exact S1]|].
    eapply y_call_name; [apply (y_name _ _ m); assumption | apply list_args; [exact Gb | exact P | exact J4 | apply Tr] | apply no_block, Tr].
  Qed.
  Lemma good_callval e es : good e -> good_body es -> good (ECallVal e es).
  Proof.
    intros G Gb. apply chain_good; [reflexivity..|]. intros s r ((R & O) & T) J Tr _.
    destruct (cat_inv _ _ _ _ T J) as (a & b & -> & Ta & P & J1 & J2). rewrite <- app_assoc. cbn [emb].
    destruct (good_paren es b r Gb P J2 (t_base _ Tr)) as (b' & Eb & Y).
    eapply chain_call.
    - apply (g_chain _ G R); [exact Ta | exact J1 | | rewrite O; discriminate].
      eapply tight_paren; [exact Gb | exact P | exact J2 | apply Tr..].
    - apply y_call_list; [| |exact Y | apply Tr]; subst b; cbn [app]; pf [40].
  Qed.
  Lemma good_namelist e x es : lv e = 0%nat -> bare e = false -> emb e = [MsgOf x (ListOf (stms es)) SNil] ->
    (forall s, text e s -> (name str x ^^ paren (body es)) s) -> good_body es -> good e.
  Proof.
    intros L B E H Gb. apply chain_good; [exact L | exact B|]. intros s r T J Tr _. rewrite E. apply H in T.
    destruct (cat_inv _ _ _ _ T J) as (c & d & -> & N & P & J3 & J4). rewrite <- app_assoc.
    eapply chain_name; [apply name_name_at; eassumption | apply paren_base, (paren_head _ P) | apply list_args; [exact Gb | exact P | exact J4 | apply Tr] | apply no_block, Tr | exact Tr].
  Qed.
  Lemma good_loop_ b : good_body b -> good (ELoop b).
  Proof.
    intros Gb. apply chain_good; [reflexivity..|]. intros s r T J Tr _. cbn [TextSpec.text emb] in *.
    destruct (cat_inv _ _ _ _ T J) as (c & d & -> & N & P & J3 & J4). rewrite <- app_assoc.
    apply (kw_name t_loop _ eq_refl) in N. rewrite (n_loop _ NK) in N.
    eapply chain_name; [apply name_name_at; eassumption | apply blk_base, (blk_head _ P) | apply no_args_blk, (blk_head _ P) | apply a_block; [exact Gb | exact P | exact J4 | apply Tr] | exact Tr].
  Qed.
  Lemma good_while c b : good_body (Cons c Nil) -> good_body b -> good (EWhile c b).
  Proof.
    intros Gc Gb. apply chain_good; [reflexivity..|]. intros s r T J Tr _. cbn [TextSpec.text emb] in *.
    destruct (cat_inv _ _ _ _ T J) as (w & d & -> & N & T1 & J1 & J2).
    destruct (cat_inv _ _ _ _ T1 J2) as (p & q & -> & P & Q & J3 & J4). rewrite <- !app_assoc in *.
    apply (kw_name t_while _ eq_refl) in N. rewrite (n_while _ NK) in N.
    eapply chain_name; [apply name_name_at; eassumption | apply paren_base, (paren_head _ P)
      | apply (list_args (Cons c Nil)); [exact Gc | exact P | exact J3 | apply blk_base, (blk_head _ Q)] | apply a_block; [exact Gb | exact Q | exact J4 | apply Tr] | exact Tr].
  Qed.
  Definition good_clauses (k : clauses) : Prop := forall s r, text_clauses str k s -> joins s r = true -> tight r ->
    tight (s ++ r) /\ forall S l, chain S (s ++ r) l -> chain S r (l ++ embk k).
  Lemma good_if c b k : good_body (Cons c Nil) -> good_body b -> good_clauses k -> good (EIf c b k).
  Proof.
    intros Gc Gb Gk. apply chain_good; [reflexivity..|]. intros s r T J Tr _. cbn [TextSpec.text] in *.
    destruct (cat_inv _ _ _ _ T J) as (w & d & -> & N & T1 & J1 & J2).
    destruct (cat_inv _ _ _ _ T1 J2) as (p & t2 & -> & P & T2 & J3 & J4).
    destruct (cat_inv _ _ _ _ T2 J4) as (q & x & -> & Q & K & J5 & J6). rewrite <- !app_assoc in *.
    destruct (Gk x r K J6 Tr) as [Tk Ck].
    apply (kw_name t_if _ eq_refl) in N. rewrite (n_if _ NK) in N.
    change (emb (EIf c b k)) with ([MsgOf PN_if (ListOf (stms (Cons c Nil))) (BlockOf (stms b))] ++ embk k). apply Ck.
    eapply chain_name; [apply name_name_at; eassumption | apply paren_base, (paren_head _ P)
      | apply (list_args (Cons c Nil)); [exact Gc | exact P | exact J3 | apply blk_base, (blk_head _ Q)] | apply a_block; [exact Gb | exact Q | exact J5 | apply Tk] | exact Tk].
  Qed.
  Lemma good_kend : good_clauses KEnd.
  Proof. intros s r T J Tr. cbn in T. unfold empty in T. subst s. split; [exact Tr|]. intros S l C. cbn [embk]. rewrite app_nil_r. exact C. Qed.
  Lemma good_kelse b : good_body b -> good_clauses (KElse b).
  Proof.
    intros Gb s r T J Tr. cbn [text_clauses embk] in *.
    destruct (cat_inv _ _ _ _ T J) as (c & d & -> & N & P & J3 & J4). rewrite <- app_assoc.
    apply (kw_name t_else _ eq_refl) in N. rewrite (n_else _ NK) in N.
    pose proof (name_name_at str _ _ _ N J3) as A. assert (B : base (d ++ r)) by (apply blk_base, (blk_head _ P)).
    split; [apply (shut_name str dbl _ _ _ A B)|].
    intros S l C. eapply chain_call; [exact C|].
    eapply y_call_name; [apply (y_name _ _ PN_else); assumption | apply no_args_blk, (blk_head _ P) | apply a_block; [exact Gb | exact P | exact J4 | apply Tr]].
  Qed.
  Lemma good_kelsif c b k : good_body (Cons c Nil) -> good_body b -> good_clauses k -> good_clauses (KElsif c b k).
  Proof.
    intros Gc Gb Gk s r T J Tr. cbn [text_clauses] in *.
    destruct (cat_inv _ _ _ _ T J) as (w & d & -> & N & T1 & J1 & J2).
    destruct (cat_inv _ _ _ _ T1 J2) as (p & t2 & -> & P & T2 & J3 & J4).
    destruct (cat_inv _ _ _ _ T2 J4) as (q & x & -> & Q & K & J5 & J6). rewrite <- !app_assoc in *.
    destruct (Gk x r K J6 Tr) as [Tk Ck].
    apply (kw_name t_elsif _ eq_refl) in N. rewrite (n_elsif _ NK) in N.
    pose proof (name_name_at str _ _ _ N J1) as A. assert (B : base (p ++ q ++ x ++ r)) by (apply paren_base, (paren_head _ P)).
    split; [apply (shut_name str dbl _ _ _ A B)|].
    intros S l C.
    replace (l ++ embk (KElsif c b k)) with ((l ++ [MsgOf PN_elsif (ListOf (stms (Cons c Nil))) (BlockOf (stms b))]) ++ embk k) by (rewrite <- app_assoc; reflexivity).
    apply Ck. eapply chain_call; [exact C|].
    eapply y_call_name; [apply (y_name _ _ PN_elsif); assumption
      | apply (list_args (Cons c Nil)); [exact Gc | exact P | exact J3 | apply blk_base, (blk_head _ Q)] | apply a_block; [exact Gb | exact Q | exact J5 | apply Tk]].
  Qed.
  (** parameters are a list of names *)
  Fixpoint evars (ps : list Z) : exps := match ps with [] => Nil | p :: ps => Cons (EVar p) (evars ps) end.
  Lemma params_body ps s : params str ps s -> body (evars ps) s.
  Proof.
    revert s. induction ps as [|p ps IH]; intros s H; [exact H|]. cbn [params evars TextSpec.body] in *.
    destruct H as (a & b & -> & A & B & J). exists a, b. repeat split; try assumption.
    destruct ps as [|p' ps]; [exact B|]. cbn [evars]. destruct B as (a' & b' & -> & A' & B' & J'). exists a', b'. repeat split; try assumption. apply IH, B'.
  Qed.
  Lemma good_evars ps : good_more (evars ps).
  Proof. induction ps as [|p ps IH]; [apply good_more_nil | apply good_more_cons; [apply good_var | exact IH]]. Qed.
  Lemma stms_evars ps : stms (evars ps) = map (fun p => S1 EXPR (STup [MsgOf p SNil SNil])) ps.
  Proof. induction ps as [|p ps IH]; [reflexivity|]. cbn [evars stms map]. rewrite IH. reflexivity. Qed.
  Lemma good_fun l ps b : good_body b -> good (EFun l ps b).
  Proof.
    intros Gb. apply chain_good; [reflexivity..|]. intros s r (Np & T) J Tr _.
    destruct (cat_inv _ _ _ _ T J) as (p & q & -> & P & Q & J3 & J4). rewrite <- app_assoc.
    assert (P' : paren (body (evars ps)) p).
    { destruct P as (a & c & -> & A & (a' & c' & -> & A' & C' & J') & J''). exists a, (a' ++ c'). repeat split; try assumption.
      exists a', c'. repeat split; try assumption. apply params_body, A'. }
    assert (Gp : good_body (evars ps)).
    { destruct ps as [|x ps]; [contradiction Np; reflexivity|]. apply good_body_cons; [apply good_var | apply good_evars]. }
    destruct (good_paren _ _ _ Gp P' J3 (blk_base q r (blk_head _ Q))) as (p' & Ep & Y).
    destruct (good_blk _ _ _ Gb Q J4 (t_base _ Tr)) as (q' & Eq & Y2).
    assert (E : emb (EFun l ps b) = [Src PROTO (ListOf (stms (evars ps))) (BlockOf (stms b)) SNil]).
    { cbn [emb]. rewrite stms_evars. destruct ps; [contradiction Np; reflexivity | reflexivity]. }
    rewrite E. apply chain_atom; [apply plain_paren; eauto | | apply Tr..].
    apply y_atom_closure; [subst p; cbn [app]; pf [40]|]. eapply y_closure; eassumption.
  Qed.

  Definition all1 (e : exp) : Prop := good e /\ good_inner e /\ good_attrs e /\ good_item e.
  Definition all2 (es : exps) : Prop := good_body es /\ good_more es /\ good_items es /\ good_imore es /\ parts_ok es.
  Lemma plain1 e : match e with ELit _ | EList _ | ELick _ _ => False | _ => True end -> good e -> all1 e.
  Proof. intros H G. split; [exact G|]. destruct e; try contradiction H; (split; [intros ? ? []|]; split; [exact Logic.I|]; intros ? ? []). Qed.
  Lemma all_good : (forall e, all1 e) /\ (forall es, all2 es) /\ (forall k, good_clauses k).
  Proof.
    assert (One : forall e, all1 e -> good_body (Cons e Nil)) by (intros e (G & _); apply good_body_cons; [exact G | exact good_more_nil]).
    apply exp_ind3; intros;
      try (apply plain1; [exact Logic.I|]); repeat match goal with K : all1 _ |- _ => pose proof (proj1 K); pose proof (One _ K); revert K end; intros;
      repeat match goal with K : all2 _ |- _ => let A := fresh in let B := fresh in pose proof K as (A & B & _); revert K end; intros.
    - split; [apply good_lit|]. split; [apply good_inner_lit|]. split; [exact Logic.I | intros ? ? []].
    - apply good_var.
    - apply (good_named _ x); try reflexivity. intros ? Ht. exact Ht.
    - apply (good_named _ PN_self); try reflexivity. intros ? Ht. rewrite <- (n_self _ NK). apply kw_name; [reflexivity | exact Ht].
    - apply good_bin; assumption.
    - apply good_not; assumption.
    - apply good_bitn; assumption.
    - apply (good_bool (EAnd a b) a b AND s_and); try reflexivity; try assumption; [left; auto|]. intros ? Ht; exact Ht.
    - apply (good_bool (EOr a b) a b OR s_or); try reflexivity; try assumption; [right; auto|]. intros ? Ht; exact Ht.
    - apply (good_assign (ESet x e) (EVar x) e); try reflexivity; try assumption; [intros ? Ht; exact Ht | apply good_var].
    - apply (good_assign (EUpSet x e) (EVar x) e); try reflexivity; try assumption; [intros ? Ht; exact Ht | apply good_var].
    - apply (good_assign (EGlob x e) (EVar x) e); try reflexivity; try assumption; [intros ? Ht; exact Ht | apply good_var].
    - apply good_inc.
    - apply good_path.
    - apply good_pathof; assumption.
    - apply (good_assign (EPathSet n e) (EPath n) e); try reflexivity; try assumption; [intros ? Ht; exact Ht | apply good_path].
    - match goal with K : all2 es |- _ => destruct K as (Gb & Gm & Gi & _) end. split; [|split; [apply good_inner_list, Gi|split; [exact Gb | intros ? ? []]]].
      apply (good_list _ es); try reflexivity; [destruct es; reflexivity | intros ? Ht; exact Ht | exact Gb | exact Gi].
    - apply good_send; assumption.
    - apply good_send0; assumption.
    - apply (good_namelist _ m es); try reflexivity; [intros ? Ht; exact Ht | assumption].
    - apply (good_named _ m); try reflexivity. intros ? Ht. exact Ht.
    - apply (good_namelist _ x es); try reflexivity; [intros ? Ht; exact Ht | assumption].
    - apply (good_namelist _ x es); try reflexivity; [intros ? Ht; exact Ht | assumption].
    - apply good_callval; assumption.
    - apply good_if; assumption.
    - apply good_while; assumption.
    - apply good_loop_. assumption.
    - apply (good_named _ PN_break); try reflexivity. intros ? Ht. rewrite <- (n_break _ NK). apply kw_name; [reflexivity | exact Ht].
    - apply (good_named _ PN_continue); try reflexivity. intros ? Ht. rewrite <- (n_continue _ NK). apply kw_name; [reflexivity | exact Ht].
    - apply (good_namelist _ PN_return (Cons e Nil)); try reflexivity; [|assumption].
      intros s (a & b & -> & A & B & J). exists a, b. repeat split; try assumption. rewrite <- (n_return _ NK). apply kw_name; [reflexivity | exact A].
    - apply (good_list _ es); try reflexivity; [destruct es; reflexivity | intros ? Ht; left; exact Ht | assumption | match goal with K : all2 es |- _ => apply K end].
    - match goal with K : all2 es |- _ => destruct K as (_ & _ & _ & _ & P) end. split; [split; intros; match goal with T : text (ELick _ _) _ |- _ => contradiction T end|].
      split; [intros ? ? []|]. split; [exact Logic.I|]. apply P.
    - apply good_elem.
    - apply good_fun. assumption.
    - split; [exact good_body_nil|]. split; [exact good_more_nil|]. split; [exact good_items_nil|]. split; [exact good_imore_nil | exact parts_nil].
    - match goal with K : all1 e, L : all2 es |- _ => destruct K as (G1 & G2 & G3 & G4); destruct L as (_ & _ & _ & G5 & G6 & _) end.
      split; [apply good_body_cons; assumption|]. split; [apply good_more_cons; assumption|].
      split; [apply good_items_cons; assumption|]. split; [apply good_imore_cons; assumption|]. apply parts_cons; assumption.
    - exact good_kend.
    - apply good_kelse. assumption.
    - apply good_kelsif; assumption.
  Qed.
End Main.
