(** Names, calls, lists, blocks, functions: what the rules for them match and build. *)
From Verif Require Import Base WordModel WordProofs NumModel NumProofs CompileModel SrcSpec PegModel PegTerm SyntaxModel SyntaxTerm PegProofs TextSpec SyntaxLex SyntaxLit.
From Coq Require Import ZifyBool Arith.PeanoNat.

(** failing on every text that starts with a letter *)
Definition letters : list Z := filter letter (map Z.of_nat (seq 0 128)).
Lemma letter_In c : letter c = true -> In c letters.
Proof.
  intros H. apply filter_In. split; [|exact H]. unfold letter, between in H. apply in_map_iff. exists (Z.to_nat c). split; [lia|]. apply in_seq. lia.
Qed.
Definition is_PF (x : pres) : bool := match x with PF => true | _ => false end.
Lemma is_PF_fails n e p u : is_PF (prun n e p false) = true -> fails e (p ++ u).
Proof. intros H. destruct (prun n e p false) eqn:E; try discriminate H. exact (prun_fails n e p u E). Qed.
Lemma all_PF {A : Type} n (e : A -> gpe) (p : A -> list Z) (l : list A) : forallb (fun x => is_PF (prun n (e x) (p x) false)) l = true ->
  forall x u, In x l -> fails (e x) (p x ++ u).
Proof. intros H x u I. rewrite forallb_forall in H. exact (is_PF_fails n _ _ _ (H x I)). Qed.
Lemma letter_fails e c t : forallb (fun c => is_PF (prun 200 e [c] false)) letters = true -> letter c = true -> fails e (c :: t).
Proof.
  intros H L. apply letter_In in L. exact (all_PF 200 (fun _ => e) (fun c => [c]) _ H c t L).
Qed.
Ltac lf := apply letter_fails; [vm_compute; reflexivity | assumption].

Lemma misses_alt_seq a b d s : misses (Seq a d) s -> misses (Seq b d) s -> misses (Seq (Alt a b) d) s.
Proof.
  intros H1 H2 be. destruct (H1 be) as (n & E1). destruct (H2 be) as (m & E2).
  destruct n as [|n]; [discriminate E1|]. destruct m as [|m]; [discriminate E2|].
  exists (S (S (Nat.max n m))). remember (S (Nat.max n m)) as q. cbn [run] in E1, E2 |- *.
  assert (Qn : (n <= Nat.max n m)%nat) by lia. assert (Qm : (m <= Nat.max n m)%nat) by lia. assert (Qq : (Nat.max n m <= q)%nat) by lia.
  destruct (grun n a s be) as [[s1 b1 t1|b1]|] eqn:A; try discriminate.
  - assert (A' : grun q (Alt a b) s be = Some (Match s1 b1 t1)).
    { subst q. cbn [run]. rewrite (run_le _ _ n _ _ _ _ _ Qn A). reflexivity. }
    rewrite A'. destruct (grun n d s1 b1) as [[s2 b2 t2|b2]|] eqn:D; try discriminate. injection E1 as ->.
    rewrite (run_le _ _ n q _ _ _ _ ltac:(lia) D). reflexivity.
  - injection E1 as ->. destruct (grun m b s be) as [[s1 b1 t1|b1]|] eqn:B; try discriminate.
    + assert (A' : grun q (Alt a b) s be = Some (Match s1 b1 t1)).
      { subst q. cbn [run]. rewrite (run_le _ _ n _ _ _ _ _ Qn A), (run_le _ _ m _ _ _ _ _ Qm B). reflexivity. }
      rewrite A'. destruct (grun m d s1 b1) as [[s2 b2 t2|b2]|] eqn:D; try discriminate. injection E2 as ->.
      rewrite (run_le _ _ m q _ _ _ _ ltac:(lia) D). reflexivity.
    + injection E2 as ->. assert (A' : grun q (Alt a b) s be = Some (Fail be)).
      { subst q. cbn [run]. rewrite (run_le _ _ n _ _ _ _ _ Qn A), (run_le _ _ m _ _ _ _ _ Qm B). reflexivity. }
      rewrite A'. reflexivity.
Qed.

Section Call.
  Context (str dbl : list Z -> Z).
  Notation skips := (skips str dbl).
  Notation does := (does str dbl).
  Notation yields := (yields str dbl).

  (** ** What may follow *)
  Definition okc (c : Z) : bool := no_gap c && negb (c =? 39) && negb (c =? 91).
  Definition base (r : list Z) : Prop := heads okc r = true /\ no_frac r.
  Record tight (r : list Z) : Prop := {
    t_base : base r; t_block : fails (Rul r_block) r; t_closure : fails (Rul r_closure) r;
    t_pplus : fails (Rul r_pplus) r; t_mminus : fails (Rul r_mminus) r }.
  Record shut (r : list Z) : Prop := {
    s_tight : tight r; s_value : fails (Rul r_value) r; s_list : fails (Rul r_list) r }.
  Record ends (r : list Z) : Prop := { e_shut : shut r; e_call : fails (Rul r_call) r }.
  Lemma base_gap r : base r -> heads no_gap r = true.
  Proof. intros [H _]. eapply heads_imp; [exact H|]. intros c. unfold okc. lia. Qed.

  (** ** Names *)
  Lemma lick_head r : heads (fun c => negb (c =? 91)) r = true -> fails (Rul r_lick) r.
  Proof.
    intros H. apply fails_rul. cbn [grammar]. apply fails_seq1, misses_fails, misses_rul. cbn [grammar]. apply misses_seq1.
    destruct r as [|c r]; [apply misses_chr_nil|]. cbn [heads] in H. apply misses_chr. lia.
  Qed.
  (** the part of a name text: the word, blanks, the rest *)
  Record name_at (x : Z) (s r : list Z) : Prop := {
    na_w : exists c u q g, s = c :: u ++ q ++ g /\ letter c = true /\ forallb name_char u = true
      /\ (q = [] \/ q = [63]) /\ ident (c :: u) = true /\ ident_q (c :: u ++ q) /\ spaces g /\ stops (g ++ r) /\ str (c :: u ++ q) = x }.
  Lemma joins_stops w g r c t : rev w = c :: t -> word_char c = true -> spaces g -> joins (w ++ g) r = true -> stops (g ++ r).
  Proof.
    intros R C G J. destruct g as [|d g].
    - rewrite app_nil_r in J. unfold joins in J. rewrite R in J. unfold stops. destruct r as [|y r]; [reflexivity|]. cbn [heads app].
      rewrite C in J. cbn [andb] in J. apply andb_true_iff in J. apply J.
    - unfold spaces in G. cbn [forallb] in G. apply andb_true_iff in G. destruct G as [G _]. unfold stops. cbn [app heads].
      unfold blank in G. unfold word_char, name_char, letter, digit, between. lia.
  Qed.
  Lemma name_char_word c : name_char c = true -> word_char c = true.
  Proof. unfold word_char. intros ->. reflexivity. Qed.
  Lemma letter_name c : letter c = true -> name_char c = true.
  Proof. unfold name_char. intros ->. reflexivity. Qed.
  Lemma last_word c u q : letter c = true -> forallb name_char u = true -> (q = [] \/ q = [63]) ->
    exists d t, rev (c :: u ++ q) = d :: t /\ word_char d = true.
  Proof.
    intros C U Q. destruct Q as [-> | ->].
    - rewrite app_nil_r. destruct (rev (c :: u)) as [|d t] eqn:E; [cbn in E; symmetry in E; destruct (app_cons_not_nil _ _ _ E)|].
      exists d, t. split; [reflexivity|]. assert (I : In d (rev (c :: u))) by (rewrite E; left; reflexivity). apply in_rev in I.
      apply name_char_word. destruct I as [<-|I]; [apply letter_name, C|]. rewrite forallb_forall in U. exact (U _ I).
    - exists 63. cbn [rev]. rewrite rev_app_distr. cbn [rev app]. eexists. split; reflexivity.
  Qed.
  Lemma name_name_at x s r : name str x s -> joins s r = true -> name_at x s r.
  Proof.
    intros (w & W & Hx & g & G & ->) J. destruct (ident_q_parts w W) as (c & u & q & E & C & U & Q & I). subst w.
    destruct (last_word c u q C U Q) as (d & t & E & D).
    constructor. exists c, u, q, g. cbn [app]. rewrite <- app_assoc. repeat (split; [first [assumption | reflexivity]|]).
    split; [|exact Hx]. exact (joins_stops _ _ _ _ _ E D G J).
  Qed.
  Lemma spaces_91 g r : spaces g -> heads okc r = true -> heads (fun c => negb (c =? 91)) (g ++ r) = true.
  Proof.
    intros G H. destruct g as [|c g]; [eapply heads_imp; [exact H|]; intros c; unfold okc; lia|].
    unfold spaces in G. cbn [forallb] in G. apply andb_true_iff in G. destruct G as [G _]. cbn [app heads]. unfold blank in G. lia.
  Qed.
  Lemma immed_name x s r : name_at x s r -> fails (Rul r_immed) (s ++ r).
  Proof.
    intros [(c & u & q & g & -> & C & U & Q & I & _ & G & St & _)]. apply fails_rul. cbn [grammar app].
    assert (W : forall k, In k reserved -> misses (Str k >> Nt (Rul r_utfw)) (c :: (u ++ q ++ g) ++ r)).
    { intros k K. pose proof (misses_word str dbl k (c :: u) q (g ++ r) K I Q St) as M. cbn [app] in M.
      rewrite <- !app_assoc. exact M. }
    apply fails_alt; [apply fails_seq1, misses_fails, misses_rul; apply W; cbn; tauto|].
    apply fails_alt; [apply fails_seq1, misses_fails, misses_rul; apply W; cbn; tauto|].
    apply fails_alt; [apply fails_seq1, misses_fails, misses_rul; apply W; cbn; tauto|].
    lf.
  Qed.
  Lemma tuple_name x s r : name_at x s r -> base r -> fails (Rul r_tuple) (s ++ r).
  Proof.
    intros [(c & u & q & g & -> & C & U & Q & I & Iq & G & St & _)] B. apply fails_rul. cbn [grammar].
    pose proof (y_msg str dbl (c :: u ++ q) (g ++ r) Iq St) as M.
    eapply (fails_seq2 str dbl) with (I := fr 2 (fun _ => True)).
    - eapply does_var with (K' := fun _ => True); [|lia|lia|intros ? ? ? ? ?; exact Logic.I].
      replace ((c :: u ++ q ++ g) ++ r) with ((c :: u ++ q) ++ g ++ r) by (cbn [app]; rewrite <- !app_assoc; reflexivity). exact M.
    - apply fails_seq1, fails_var, lick_head, spaces_91; [exact G | apply B].
  Qed.
  Lemma value_name x s r : name_at x s r -> base r -> fails (Rul r_value) (s ++ r).
  Proof.
    intros N B. apply fails_rul. cbn [grammar].
    apply fails_alt; [apply fails_seq1, fails_var, (immed_name x), N|].
    apply fails_alt; [apply fails_seq1, fails_var, (tuple_name x); assumption|].
    destruct N as [(c & u & q & g & -> & C & _)]. cbn [app]. lf.
  Qed.
  Lemma keyword_name x s r : name_at x s r -> misses (Rul r_keyword) (s ++ r).
  Proof.
    intros [(c & u & q & g & -> & C & U & Q & I & _ & G & St & _)]. apply misses_rul. cbn [grammar].
    assert (W : forall k, In k reserved -> misses (Str k >> Nt (Rul r_utfw)) ((c :: u ++ q ++ g) ++ r)).
    { intros k K. pose proof (misses_word str dbl k (c :: u) q (g ++ r) K I Q St) as M. cbn [app] in M |- *.
      rewrite <- !app_assoc. exact M. }
    apply misses_alt_seq; [apply W; cbn; tauto|]. apply misses_alt_seq; apply W; cbn; tauto.
  Qed.
  Lemma y_name x s r : name_at x s r -> base r -> yields (Rul r_name) (s ++ r) r (SSrc (MsgOf x SNil SNil)).
  Proof.
    intros N B. pose proof (tuple_name _ _ _ N B) as T. pose proof (keyword_name _ _ _ N) as K.
    destruct N as [(c & u & q & g & -> & C & U & Q & I & Iq & G & St & X)]. subst x.
    apply yields_rul. cbn [grammar nvars].
    apply does_alt2; [lf|]. apply does_alt2; [lf|].
    apply does_alt2; [apply fails_seq1, fails_var, T|].
    eapply skips_does_seq; [apply skips_nt, K|].
    replace ((c :: u ++ q ++ g) ++ r) with ((c :: u ++ q) ++ g ++ r) by (cbn [app]; rewrite <- !app_assoc; reflexivity).
    eapply does_seq; [eapply does_var' with (K' := fun v => v (-2) = SVal (str (c :: u ++ q))); [apply y_msg; assumption | lia | lia | intros v1 v2 _ E _; exact E]|].
    eapply skips_does_seq; [apply skips_sp; [exact G | apply base_gap, B]|].
    apply does_ret'. intros t st E. cbn [do_act]. rewrite E. reflexivity.
  Qed.
  Lemma block_name c t : letter c = true -> fails (Rul r_block) (c :: t).
  Proof. intros C. lf. Qed.
  Lemma closure_name c t : letter c = true -> fails (Rul r_closure) (c :: t).
  Proof. intros C. lf. Qed.
  Lemma list_name c t : letter c = true -> fails (Rul r_list) (c :: t).
  Proof. intros C. lf. Qed.
  Lemma letter_okc c : letter c = true -> okc c = true /\ c <> 46.
  Proof. unfold letter, between, okc, no_gap, blank. lia. Qed.
  Lemma shut_name x s r : name_at x s r -> base r -> shut (s ++ r).
  Proof.
    intros N B. pose proof (value_name _ _ _ N B) as V. destruct N as [(c & u & q & g & -> & C & _)].
    constructor; [constructor|exact V|]; cbn [app]; try lf.
    destruct (letter_okc c C) as [O D]. split; [exact O|]. cbn [no_frac]. destruct c as [|c|c]; try exact Logic.I.
    do 6 (destruct c as [c|c|]; try exact Logic.I). contradiction D. reflexivity.
  Qed.

  (** ** Paths *)
  Record path_at (x : Z) (s r : list Z) : Prop := {
    pa_w : exists c u g, s = 47 :: c :: u ++ g /\ letter c = true /\ forallb name_char u = true /\ spaces g /\ stops (g ++ r) /\ str (c :: u) = x }.
  Lemma path_path_at x s r : path str x s -> joins s r = true -> path_at x s r.
  Proof.
    intros (w & W & Hx & g & G & ->) J. destruct w as [|c u]; [discriminate W|]. cbn [path_ident] in W. apply andb_true_iff in W. destruct W as [C U].
    destruct (last_word c u [] C U (or_introl eq_refl)) as (d & t & E & D). rewrite app_nil_r in E.
    constructor. exists c, u, g. repeat (split; [first [assumption | reflexivity]|]). split; [|exact Hx].
    eapply (joins_stops (47 :: c :: u) g r d (t ++ [47])); [|exact D | exact G | exact J]. change (47 :: c :: u) with ([47] ++ c :: u). rewrite rev_app_distr, E. reflexivity.
  Qed.
  Lemma y_path_name x s r : path_at x s r -> base r -> yields (Rul r_name) (s ++ r) r (SSrc (Src PATH (SVal x) SNil SNil)).
  Proof.
    intros [(c & u & g & -> & C & U & G & St & X)] B. subst x. apply yields_rul. cbn [grammar nvars]. apply does_alt1.
    eapply does_seq; [eapply does_var' with (K' := fun v => v (-3) = SVal (str (c :: u))); [|lia|lia|intros v1 v2 _ E _; exact E]|].
    - replace ((47 :: c :: u ++ g) ++ r) with (47 :: (c :: u) ++ g ++ r) by (cbn [app]; rewrite <- !app_assoc; reflexivity).
      apply y_path; [cbn [path_ident]; rewrite C; exact U | exact G | exact St | apply base_gap, B].
    - apply does_ret'. intros t st E. cbn [do_act]. rewrite E. reflexivity.
  Qed.
  Lemma shut_path x s r : path_at x s r -> shut (s ++ r).
  Proof.
    intros [(c & u & g & -> & C & _)]. constructor; [constructor|..]; cbn [app]; try pf [47]. split; [reflexivity | exact Logic.I].
  Qed.

  (** ** Calls *)
  Definition opt_args (r1 r2 : list Z) (v : sf) : Prop :=
    fails (Rul r_value) r1 /\ ((r2 = r1 /\ v = SNil /\ fails (Rul r_list) r1) \/ yields (Rul r_list) r1 r2 v).
  Definition opt_block (r1 r2 : list Z) (v : sf) : Prop :=
    (r2 = r1 /\ v = SNil /\ fails (Rul r_block) r1 /\ fails (Rul r_closure) r1) \/ yields (Rul r_block) r1 r2 v.
  Definition frame3 (a b c : sf) : (Z -> sf) -> Prop := fun v => v (-3) = a /\ v (-2) = b /\ v (-1) = c.
  Lemma does_opt_var n (K K' : (Z -> sf) -> Prop) k ra rb s r t : 0 <= n -> - n <= k < 0 ->
    bind_to k t K K' ->
    (yields (Rul ra) s r t \/ (fails (Rul ra) s /\ yields (Rul rb) s r t)) ->
    does (fr n K) (Opt (Var k ra // Var k rb)) s r (fr n K').
  Proof.
    intros Hn Hk Bk [Y|[F Y]]; apply does_opt1.
    - apply does_alt1. eapply does_var'; eassumption.
    - apply does_alt2; [apply fails_var, F|]. eapply does_var'; eassumption.
  Qed.
  Lemma y_call_name s r1 r2 r3 p a x y v b : yields (Rul r_name) s r1 (SSrc (Src p a x y)) ->
    opt_args r1 r2 v -> opt_block r2 r3 b -> yields (Rul r_call) s r3 (SSrc (Src p a v b)).
  Proof.
    intros N A B. apply yields_rul. cbn [grammar nvars].
    eapply does_seq with (M := fr 3 (frame3 (SSrc (Src p a x y)) v b)).
    - apply does_alt1.
      eapply does_seq; [eapply does_var' with (K' := fun v => v (-3) = SSrc (Src p a x y)); [exact N | lia | lia | intros v1 v2 _ E _; exact E]|].
      eapply does_seq with (M := fr 3 (frame3 (SSrc (Src p a x y)) SNil SNil)).
      { apply does_act. intros t bb st (L1 & L2 & L3). eexists. split; [reflexivity|].
        split; [exact L1|]. split.
        - intros i Hi. cbn [set_val vals top]. unfold upd_val. replace (i =? top st + -1) with false by lia. replace (i =? top st + -2) with false by lia. apply L2, Hi.
        - unfold frame3. rewrite !val_set. cbn [Z.eqb Pos.eqb]. auto. }
      destruct A as [A1 A2].
      eapply does_seq with (M := fr 3 (frame3 (SSrc (Src p a x y)) v SNil)).
      { destruct A2 as [(-> & -> & A2)|A2].
        - apply does_opt0, fails_alt; apply fails_var; assumption.
        - eapply does_opt_var; [lia | lia | | right; split; [exact A1 | exact A2]].
          intros v1 v2 (E1 & E2 & E3) H1 H2. unfold frame3. rewrite H1, !H2 by lia. auto. }
      destruct B as [(-> & -> & B1 & B2)|B].
      { apply does_opt0, fails_alt; apply fails_var; assumption. }
      eapply does_opt_var; [lia | lia | | left; exact B].
      intros v1 v2 (E1 & E2 & E3) H1 H2. unfold frame3. rewrite H1, !H2 by lia. auto.
    - apply does_ret'. intros t st (E1 & E2 & E3). cbn [do_act]. rewrite E1, E2, E3. reflexivity.
  Qed.
  (** a list applied to the value before it *)
  Lemma y_call_list s r v : fails (Rul r_name) s -> fails (Rul r_value) s -> yields (Rul r_list) s r v -> fails (Rul r_block) r ->
    yields (Rul r_call) s r (SSrc (Src MSG SNil v SNil)).
  Proof.
    intros N V L B. apply yields_rul. cbn [grammar nvars].
    eapply does_seq with (M := fr 3 (frame3 (SSrc (S1 MSG SNil)) v SNil)).
    - apply does_alt2; [apply fails_seq1, fails_var, N|].
      eapply does_seq with (M := fr 3 (fun w => w (-2) = v)).
      { apply does_alt2; [apply fails_var, V|]. eapply does_var'; [exact L | lia | lia | intros v1 v2 _ E _; exact E]. }
      eapply does_seq; [|apply does_opt0, fails_var, B].
      apply does_act. intros t bb st (L1 & L2 & L3). eexists. split; [reflexivity|].
      split; [exact L1|]. split.
      + intros i Hi. cbn [set_val vals top]. unfold upd_val. replace (i =? top st + -1) with false by lia. replace (i =? top st + -3) with false by lia. apply L2, Hi.
      + unfold frame3. rewrite !val_set. cbn [Z.eqb Pos.eqb]. auto.
    - apply does_ret'. intros t st (E1 & E2 & E3). cbn [do_act]. rewrite E1, E2, E3. reflexivity.
  Qed.

  (** ** Lists and blocks; [stmts s r v]: the statements [s] before a closing [r] *)
  Definition opener (rs : list Z) : Prop := heads no_nl rs = true.
  Lemma y_list g s g2 r v : lines g -> opener (s ++ 41 :: g2 ++ r) -> spaces g2 -> heads no_gap r = true ->
    yields (Rul r_statements) (s ++ 41 :: g2 ++ r) (41 :: g2 ++ r) v ->
    yields (Rul r_list) (40 :: g ++ s ++ 41 :: g2 ++ r) r (SSrc (S1 LIST v)).
  Proof.
    intros G O G2 R Y. apply yields_rul. cbn [grammar nvars].
    eapply skips_does_seq; [apply skips_rul; [reflexivity|]; cbn [grammar]; eapply skips_seq; [apply skips_chr | apply skips_nl; eassumption]|].
    eapply does_seq; [eapply does_var' with (K' := fun w => w (-1) = v); [exact Y | lia | lia | intros v1 v2 _ E _; exact E]|].
    eapply skips_does_seq; [apply skips_rul; [reflexivity|]; cbn [grammar]; eapply skips_seq; [apply skips_chr | apply skips_sp; eassumption]|].
    apply does_ret'. intros t st E. cbn [do_act]. rewrite E. reflexivity.
  Qed.
  Lemma y_block g s g2 r v : lines g -> opener (s ++ 46 :: g2 ++ r) -> spaces g2 -> heads no_gap r = true ->
    yields (Rul r_statements) (s ++ 46 :: g2 ++ r) (46 :: g2 ++ r) v ->
    yields (Rul r_block) (58 :: g ++ s ++ 46 :: g2 ++ r) r (SSrc (S1 BLOCK v)).
  Proof.
    intros G O G2 R Y. apply yields_rul. cbn [grammar nvars].
    eapply skips_does_seq; [apply skips_rul; [reflexivity|]; cbn [grammar]; eapply skips_seq; [apply skips_chr | apply skips_nl; eassumption]|].
    eapply does_seq; [eapply does_var' with (K' := fun w => w (-1) = v); [exact Y | lia | lia | intros v1 v2 _ E _; exact E]|].
    eapply skips_does_seq; [apply skips_rul; [reflexivity|]; cbn [grammar]; eapply skips_seq; [apply skips_chr | apply skips_sp; eassumption]|].
    apply does_ret'. intros t st E. cbn [do_act]. rewrite E. reflexivity.
  Qed.
  Lemma y_closure s r1 r2 a b : yields (Rul r_list) s r1 a -> yields (Rul r_block) r1 r2 b ->
    yields (Rul r_closure) s r2 (SSrc (Src PROTO a b SNil)).
  Proof.
    intros L B. apply yields_rul. cbn [grammar nvars].
    eapply does_seq; [apply does_opt1; eapply does_var' with (K' := fun w => w (-2) = a); [exact L | lia | lia | intros v1 v2 _ E _; exact E]|].
    eapply does_seq; [eapply does_var' with (K' := fun w => w (-2) = a /\ w (-1) = b); [exact B | lia | lia | intros v1 v2 E1 E2 H; rewrite H by lia; auto]|].
    apply does_ret'. intros t st (E1 & E2). cbn [do_act]. rewrite E1, E2. reflexivity.
  Qed.
  Lemma closure_list s r v : yields (Rul r_list) s r v -> fails (Rul r_block) r -> fails (Rul r_closure) s.
  Proof.
    intros L B. apply fails_rul. cbn [grammar].
    eapply (fails_seq2 str dbl) with (I := fr 2 (fun _ => True)); [apply does_opt1; eapply does_var' with (K' := fun w => True); [exact L | lia | lia | intros ? ? ? ? ?; exact Logic.I]|].
    apply fails_seq1, fails_var, B.
  Qed.

  (** ** Atoms *)
  Lemma does_var1 r s s' v : yields (Rul r) s s' v -> does (fr 1 (fun _ => True)) (Var (-1) r) s s' (out 1 v).
  Proof.
    intros Y. eapply does_conseq; [eapply does_var with (n := 1) (K := fun _ => True) (K' := fun _ => True); [exact Y | lia | lia | intros ? ? ? ? ?; exact Logic.I] | auto |].
    intros b st ((A & B & _) & C). split; [exact A|]. split; [exact B | exact C].
  Qed.
  Lemma y_atom_value s r v : yields (Rul r_value) s r v -> yields (Rul r_atom) s r v.
  Proof. intros Y. apply yields_rul. cbn [grammar nvars]. apply does_alt1, does_var1, Y. Qed.
  Lemma y_atom_closure s r v : fails (Rul r_value) s -> yields (Rul r_closure) s r v -> yields (Rul r_atom) s r v.
  Proof. intros F Y. apply yields_rul. cbn [grammar nvars]. apply does_alt2; [apply fails_var, F|]. apply does_alt1, does_var1, Y. Qed.
  Lemma y_atom_list s r v : fails (Rul r_value) s -> yields (Rul r_list) s r v -> fails (Rul r_block) r -> yields (Rul r_atom) s r v.
  Proof.
    intros F Y B. apply yields_rul. cbn [grammar nvars]. apply does_alt2; [apply fails_var, F|].
    apply does_alt2; [apply fails_var, (closure_list _ _ _ Y B)|]. apply does_alt1, does_var1, Y.
  Qed.
  Lemma y_atom_call s r v : fails (Rul r_value) s -> fails (Rul r_closure) s -> fails (Rul r_list) s -> fails (Rul r_extern) s ->
    yields (Rul r_call) s r v -> yields (Rul r_atom) s r v.
  Proof.
    intros F1 F2 F3 F4 Y. apply yields_rul. cbn [grammar nvars].
    do 4 (apply does_alt2; [apply fails_var; assumption|]). apply does_var1, Y.
  Qed.
  Lemma extern_name x s r : name_at x s r -> fails (Rul r_extern) (s ++ r).
  Proof.
    intros [(c & u & q & g & -> & C & U & Q & I & Iq & G & St & _)]. apply fails_rul. cbn [grammar].
    pose proof (misses_extern (c :: u) q (g ++ r) I Q St) as M. cbn [app] in M |- *. rewrite <- !app_assoc.
    apply fails_alt; apply fails_seq1, misses_fails, M.
  Qed.
  Lemma y_atom_name x s r r' v : name_at x s r -> base r -> yields (Rul r_call) (s ++ r) r' v -> yields (Rul r_atom) (s ++ r) r' v.
  Proof.
    intros N B Y. pose proof (shut_name _ _ _ N B) as [[]]. apply y_atom_call; try assumption. apply (extern_name x), N.
  Qed.
  Lemma y_atom_path x s r r' v : path_at x s r -> yields (Rul r_call) (s ++ r) r' v -> yields (Rul r_atom) (s ++ r) r' v.
  Proof.
    intros N Y. pose proof (shut_path _ _ _ N) as [[]]. apply y_atom_call; try assumption.
    destruct N as [(c & u & g & -> & _)]. cbn [app]. pf [47].
  Qed.
End Call.
