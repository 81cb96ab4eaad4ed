(** Expressions, operators, statements: chains of calls, loops of operators, and what
    may follow each. *)
From Verif Require Import Base WordModel WordProofs NumModel NumProofs CompileModel SrcSpec PegModel PegTerm SyntaxModel SyntaxTerm PegProofs TextSpec SyntaxLex SyntaxLit SyntaxCall.
From Coq Require Import ZifyBool Arith.PeanoNat.

Section Expr.
  Context (str dbl : list Z -> Z).
  Notation skips := (skips str dbl).
  Notation does := (does str dbl).
  Notation yields := (yields str dbl).

  (** ** Chains *)
  Definition tailE : gpe := Star (Var (-1) r_call >> Act (APushq (-2) (-1))) >> Act (AMk EXPR (-2)).
  Definition holds2 (t : sf) : pst -> pst -> Prop := fr 2 (fun v => v (-2) = t).
  Definition chain (s r : list Z) (l : list src) : Prop := forall q t,
    does (holds2 (STup l)) tailE r q (out 2 t) -> yields (Rul r_expr) s q t.
  Definition a1 : gpe := Rul r_not >> Var (-2) r_expr >> Act (AUn NOT (-2)).
  Definition a2 : gpe := Rul r_wavy >> Var (-2) r_expr >> Act (AUn WAVY (-2)).
  Definition a3 : gpe := Rul r_minus >> Nt (Rul r_minus) >> Var (-2) r_atom >> Act (AZero MINUS (-2)).
  Definition a4 : gpe := Rul r_plus >> Nt (Rul r_plus) >> Var (-2) r_atom >> Act (AZero PLUS (-2)).
  Definition a5 : gpe := Rul r_mminus >> Var (-2) r_atom >> Act (AInc (Z.lxor (PN_NUM (-1)) 1) (-2)).
  Definition a6 : gpe := Rul r_pplus >> Var (-2) r_atom >> Act (AInc (Z.lxor (PN_NUM 1) 1) (-2)).
  Definition a7 : gpe := Var (-2) r_atom >> Opt (Rul r_pplus >> Act (AInc (PN_NUM 1) (-2)) // Rul r_mminus >> Act (AInc (PN_NUM (-1)) (-2))).
  Definition plain_start (s : list Z) : Prop :=
    fails a1 s /\ fails a2 s /\ fails a3 s /\ fails a4 s /\ fails a5 s /\ fails a6 s.
  Lemma expr_eq : grammar r_expr = (a1 // a2 // a3 // a4 // a5 // a6 // a7) >> Act (ATupq (-2)) >> tailE.
  Proof. reflexivity. Qed.

  Lemma chain_head s r t : does (fr 2 (fun _ => True)) (a1 // a2 // a3 // a4 // a5 // a6 // a7) s r (holds2 (SSrc t)) -> chain s r [t].
  Proof.
    intros H q t' D. apply yields_rul. rewrite expr_eq. cbn [nvars]. eapply does_seq; [exact H|].
    eapply does_seq; [|exact D].
    apply (does_set str dbl 2 (fun v => v (-2) = SSrc t) (fun v => v (-2) = STup [t]) (-2) _ _ (fun _ => STup [t])); [lia | lia | |].
    - intros tt st E. cbn [do_act]. rewrite E. reflexivity.
    - intros v v' E H1 H2. exact H1.
  Qed.
  Lemma set2 t a s (f : sf -> sf) : (forall tt st, val st (-2) = t -> do_act str dbl a tt st = XOk (set_val (-2) (f (val st (-2))) st)) ->
    does (holds2 t) (Act a) s s (holds2 (f t)).
  Proof.
    intros H. apply (does_set str dbl 2 (fun v => v (-2) = t) (fun v => v (-2) = f t) (-2) _ _ (fun v => f (v (-2)))); [lia | lia | exact H|].
    intros v v' E H1 H2. rewrite H1, E. reflexivity.
  Qed.
  Lemma does_var2 r s s' t : yields (Rul r) s s' t -> does (fr 2 (fun _ => True)) (Var (-2) r) s s' (holds2 t).
  Proof. intros Y. eapply does_var'; [exact Y | lia | lia | intros v1 v2 _ E _; exact E]. Qed.
  Lemma chain_atom s r t : plain_start s -> yields (Rul r_atom) s r (SSrc t) -> fails (Rul r_pplus) r -> fails (Rul r_mminus) r -> chain s r [t].
  Proof.
    intros (F1 & F2 & F3 & F4 & F5 & F6) Y P M. apply chain_head.
    do 6 (apply does_alt2; [assumption|]). eapply does_seq; [apply does_var2, Y|].
    apply does_opt0, fails_alt; apply fails_seq1; assumption.
  Qed.
  Lemma chain_post s r t (up : bool) g : plain_start s ->
    yields (Rul r_atom) s ((if up then [43; 43] else [45; 45]) ++ g ++ r) (SSrc t) -> spaces g -> heads no_gap r = true ->
    chain s r [Src INC (SSrc t) (SVal (inc_word up true)) SNil].
  Proof.
    intros (F1 & F2 & F3 & F4 & F5 & F6) Y G R. apply chain_head.
    do 6 (apply does_alt2; [assumption|]). eapply does_seq; [apply does_var2, Y|].
    apply does_opt1. destruct up.
    - apply does_alt1. eapply skips_does_seq.
      + apply skips_rul; [reflexivity|]. cbn [grammar]. eapply skips_seq; [apply (skips_str str dbl [43; 43]) | apply skips_sp; assumption].
      + apply (set2 (SSrc t) _ _ (fun x => SSrc (Src INC x (SVal (inc_word true true)) SNil))). reflexivity.
    - apply does_alt2; [pf [45; 45]|]. eapply skips_does_seq.
      + apply skips_rul; [reflexivity|]. cbn [grammar]. eapply skips_seq; [apply (skips_str str dbl [45; 45]) | apply skips_sp; assumption].
      + apply (set2 (SSrc t) _ _ (fun x => SSrc (Src INC x (SVal (inc_word false true)) SNil))). reflexivity.
  Qed.
  Lemma letter_fails2 p e c t : forallb (fun c => is_PF (prun 200 e (p ++ [c]) false)) letters = true -> letter c = true -> fails e (p ++ c :: t).
  Proof.
    intros H L. apply letter_In in L. pose proof (all_PF 200 (fun _ => e) (fun c => p ++ [c]) _ H c t L) as F. cbv beta in F.
    rewrite <- app_assoc in F. exact F.
  Qed.
  Lemma letter_no_gap c s : letter c = true -> heads no_gap (c :: s) = true.
  Proof. intros H. cbn [heads]. unfold letter, between in H. unfold no_gap, blank. lia. Qed.
  Lemma chain_pre (up : bool) c s r t : letter c = true -> yields (Rul r_atom) (c :: s) r (SSrc t) ->
    chain ((if up then [43; 43] else [45; 45]) ++ c :: s) r [Src INC (SSrc t) (SVal (inc_word up false)) SNil].
  Proof.
    intros C Y. apply chain_head. destruct up.
    - do 5 (apply does_alt2; [first [pf [43; 43] | apply (letter_fails2 [43; 43]); [vm_compute; reflexivity | exact C]]|]).
      apply does_alt1. eapply skips_does_seq.
      + apply skips_rul; [reflexivity|]. cbn [grammar].
        eapply skips_seq; [apply (skips_str str dbl [43; 43]) | apply (skips_sp str dbl []); [reflexivity | apply letter_no_gap, C]].
      + eapply does_seq; [apply does_var2, Y|].
        apply (set2 (SSrc t) _ _ (fun x => SSrc (Src INC x (SVal (inc_word true false)) SNil))). reflexivity.
    - do 4 (apply does_alt2; [first [pf [45; 45] | apply (letter_fails2 [45; 45]); [vm_compute; reflexivity | exact C]]|]).
      apply does_alt1. eapply skips_does_seq.
      + apply skips_rul; [reflexivity|]. cbn [grammar].
        eapply skips_seq; [apply (skips_str str dbl [45; 45]) | apply (skips_sp str dbl []); [reflexivity | apply letter_no_gap, C]].
      + eapply does_seq; [apply does_var2, Y|].
        apply (set2 (SSrc t) _ _ (fun x => SSrc (Src INC x (SVal (inc_word false false)) SNil))). reflexivity.
  Qed.
  Lemma chain_call s r0 r1 l t : chain s r0 l -> yields (Rul r_call) r0 r1 (SSrc t) -> chain s r1 (l ++ [t]).
  Proof.
    intros C Y q t' D. apply C. unfold tailE in *.
    (* one more round of the star *)
    intros be.
    assert (X : does (holds2 (STup l)) (Var (-1) r_call >> Act (APushq (-2) (-1))) r0 r1 (holds2 (STup (l ++ [t])))).
    { eapply does_seq; [eapply does_var' with (K' := fun v => v (-2) = STup l /\ v (-1) = SSrc t); [exact Y | lia | lia |]|].
      - intros v1 v2 E H1 H2. rewrite H2 by lia. auto.
      - apply (does_set str dbl 2 (fun v => v (-2) = STup l /\ v (-1) = SSrc t) (fun v => v (-2) = STup (l ++ [t])) (-2) _ _ (fun _ => STup (l ++ [t]))); [lia | lia | |].
        + intros tt st (E1 & E2). cbn [do_act]. rewrite E1, E2. reflexivity.
        + intros v v' E H1 H2. exact H1. }
    destruct (X be) as (n1 & be1 & t1 & E1 & X1). destruct (D be1) as (n2 & be2 & t2 & E2 & X2).
    destruct n2 as [|n2]; [discriminate E2|]. cbn [run] in E2.
    destruct (grun n2 (Star (Var (-1) r_call >> Act (APushq (-2) (-1)))) r1 be1) as [[s3 b3 t3|b3]|] eqn:E3; try discriminate.
    destruct (grun n2 (Act (AMk EXPR (-2))) s3 b3) as [[s4 b4 t4|b4]|] eqn:E4; try discriminate.
    injection E2 as <- <- <-.
    set (m := Nat.max n1 n2). exists (S (S m)), b4, ((t1 ++ t3) ++ t4). split.
    - remember (S m) as m1. cbn [run]. subst m1.
      assert (A : grun (S m) (Star (Var (-1) r_call >> Act (APushq (-2) (-1)))) r0 be = Some (Match s3 b3 (t1 ++ t3))).
      { remember (Star (Var (-1) r_call >> Act (APushq (-2) (-1)))) as st eqn:Est. rewrite Est at 1. cbn [run].
        rewrite (run_le _ _ n1 m _ _ _ _ ltac:(lia) E1). rewrite <- Est. rewrite (run_le _ _ n2 m _ _ _ _ ltac:(lia) E3). reflexivity. }
      rewrite A. rewrite (run_le _ _ n2 (S m) _ _ _ _ ltac:(lia) E4). reflexivity.
    - intros b st L. destruct (X1 b st L) as (st1 & Y1 & Z1). destruct (X2 b st1 Z1) as (st2 & Y2 & Z2).
      exists st2. split; [|exact Z2]. rewrite <- app_assoc. rewrite (exec_app_ok _ _ _ _ _ _ Y1). exact Y2.
  Qed.
  Lemma chain_end s r l : chain s r l -> fails (Rul r_call) r -> yields (Rul r_expr) s r (SSrc (S1 EXPR (STup l))).
  Proof.
    intros C F. apply C. unfold tailE. eapply does_seq; [apply does_star0, fails_seq1, fails_var, F|].
    apply does_ret'. intros t st E. cbn [do_act]. rewrite E. reflexivity.
  Qed.
  Lemma y_not g s r t : lines g -> g <> [] -> heads no_nl (s ++ r) = true -> stops (g ++ s ++ r) ->
    yields (Rul r_expr) (s ++ r) r (SSrc t) -> chain ([110; 111; 116] ++ g ++ s ++ r) r [Src NOT (SSrc t) SNil SNil].
  Proof.
    intros G N O St Y. apply chain_head. apply does_alt1. eapply skips_does_seq.
    - apply skips_rul; [reflexivity|]. cbn [grammar]. eapply skips_seq; [|apply skips_nl; eassumption].
      apply skips_alt2; [cbn [app]; apply misses_chr; lia|]. apply (skips_word str dbl s_not); [reflexivity | exact St].
    - eapply does_seq; [apply does_var2, Y|].
      apply (set2 (SSrc t) _ _ (fun x => SSrc (Src NOT x SNil SNil))). reflexivity.
  Qed.
  Lemma y_bitn g s r t : lines g -> heads no_nl (s ++ r) = true ->
    yields (Rul r_expr) (s ++ r) r (SSrc t) -> chain (126 :: g ++ s ++ r) r [Src WAVY (SSrc t) SNil SNil].
  Proof.
    intros G O Y. apply chain_head. apply does_alt2; [pf [126]|]. apply does_alt1. eapply skips_does_seq.
    - apply skips_rul; [reflexivity|]. cbn [grammar]. eapply skips_seq; [apply skips_chr | apply skips_nl; eassumption].
    - eapply does_seq; [apply does_var2, Y|].
      apply (set2 (SSrc t) _ _ (fun x => SSrc (Src WAVY x SNil SNil))). reflexivity.
  Qed.

  (** ** Levels *)
  Definition rule_at (k : nat) : rule :=
    match k with
    | 0 => r_expr | 1 => r_power | 2 => r_product | 3 => r_sum | 4 => r_bitshift | 5 => r_bitand
    | 6 => r_bitors | 7 => r_cmps | 8 => r_eqs | 9 => r_sets | _ => r_stmt
    end%nat.
  Definition alts_sets : gpe :=
       Rul r_assign >> Var (-1) r_sets >> Act (AOp ASSIGN (-2) (-1))
    // Rul r_defassign >> Var (-1) r_value >> Act (AOp ASSIGN (-2) (-1))
    // asg_alt r_or OR // asg_alt r_and AND // asg_alt r_pipe PIPE // asg_alt r_caret CARET
    // asg_alt r_amp AMP // asg_alt r_bitl BITL // asg_alt r_bitr BITR // asg_alt r_plus PLUS
    // asg_alt r_minus MINUS // asg_alt r_times TIMES // asg_alt r_div DIV // asg_alt r_rem REM
    // asg_alt r_pow POW.
  Definition alts (k : nat) : gpe :=
    match k with
    | 0 => Str []
    | 1 => bin_alt r_pow r_expr POW
    | 2 => bin_alt r_times r_power TIMES // bin_alt r_div r_power DIV // bin_alt r_rem r_power REM
    | 3 => bin_alt r_plus r_product PLUS // bin_alt r_minus r_product MINUS
    | 4 => bin_alt r_bitl r_sum BITL // bin_alt r_bitr r_sum BITR
    | 5 => bin_alt r_amp r_bitshift AMP
    | 6 => bin_alt r_pipe r_bitand PIPE // bin_alt r_caret r_bitand CARET
    | 7 => bin_alt r_gte r_bitors GTE // bin_alt r_gt r_bitors GT // bin_alt r_lte r_bitors LTE // bin_alt r_lt r_bitors LT
    | 8 => bin_alt r_cmp r_cmps CMP // bin_alt r_eq r_cmps EQ // bin_alt r_neq r_cmps NEQ
    | 9 => alts_sets
    | _ => bin_alt r_or r_sets OR // bin_alt r_and r_sets AND
    end%nat.
  Definition rep (k : nat) : gpe := match k with 9%nat => Opt (alts k) | _ => Star (alts k) end.
  Lemma rule_at_eq k : (k < 10)%nat -> grammar (rule_at (S k)) = Var (-2) (rule_at k) >> rep (S k) >> Act (ARet (-2)).
  Proof. intros H. do 10 (destruct k as [|k]; [reflexivity|]). lia. Qed.
  Lemma rule_at_vars k : nvars (rule_at k) = 2.
  Proof. do 10 (destruct k as [|k]; [reflexivity|]). reflexivity. Qed.

  Record fol (k : nat) (r : list Z) : Prop := { f_ends : ends r; f_alts : forall j, (1 <= j <= k)%nat -> fails (alts j) r }.
  Lemma fol_le k k' r : fol k r -> (k' <= k)%nat -> fol k' r.
  Proof. intros [E A] L. split; [exact E|]. intros j J. apply A. lia. Qed.
  Lemma does_rep0 k s I : fails (alts k) s -> does I (rep k) s s I.
  Proof. intros F. unfold rep. do 9 (destruct k as [|k]; [apply does_star0, F|]). destruct k as [|k]; [apply does_opt0, F | apply does_star0, F]. Qed.
  Lemma does_aret t s : does (holds2 t) (Act (ARet (-2))) s s (out 2 t).
  Proof. apply does_ret'. intros tt st E. cbn [do_act]. rewrite E. reflexivity. Qed.
  Lemma lift1 k s r t : (k < 10)%nat -> yields (Rul (rule_at k)) s r t -> fails (alts (S k)) r -> yields (Rul (rule_at (S k))) s r t.
  Proof.
    intros K Y F. apply yields_rul. rewrite rule_at_eq, rule_at_vars by exact K.
    eapply does_seq; [apply does_var2, Y|]. eapply does_seq; [apply does_rep0, F | apply does_aret].
  Qed.
  Lemma lift k m s r t : (k <= m)%nat -> (m <= 10)%nat -> yields (Rul (rule_at k)) s r t ->
    (forall j, (k < j <= m)%nat -> fails (alts j) r) -> yields (Rul (rule_at m)) s r t.
  Proof.
    intros K M Y. induction K as [|m K IH]; intros F; [exact Y|].
    apply lift1; [lia | apply IH; [lia|]; intros j J; apply F; lia | apply F; lia].
  Qed.

  (** ** Operator loops *)
  Definition loop (k : nat) (s r : list Z) (t : sf) : Prop := forall q t',
    does (holds2 t) (Star (alts k) >> Act (ARet (-2))) r q (out 2 t') -> yields (Rul (rule_at k)) s q t'.
  Lemma loop_base k s r t : (k < 10)%nat -> k <> 8%nat -> yields (Rul (rule_at k)) s r t -> loop (S k) s r t.
  Proof.
    intros K K8 Y q t' D. apply yields_rul. rewrite rule_at_eq, rule_at_vars by exact K.
    eapply does_seq; [apply does_var2, Y|]. replace (rep (S k)) with (Star (alts (S k))); [exact D|].
    do 8 (destruct k as [|k]; [reflexivity|]). destruct k as [|k]; [lia | reflexivity].
  Qed.
  Lemma loop_step k s r0 r1 t t1 : loop k s r0 t -> does (holds2 t) (alts k) r0 r1 (holds2 t1) -> loop k s r1 t1.
  Proof.
    intros C X q t' D. apply C. intros be.
    destruct (X be) as (n1 & be1 & l1 & E1 & X1). destruct (D be1) as (n2 & be2 & l2 & E2 & X2).
    destruct n2 as [|n2]; [discriminate E2|]. remember (Star (alts k)) as sa eqn:Esa. cbn [run] in E2.
    destruct (grun n2 sa r1 be1) as [[s3 b3 t3|b3]|] eqn:E3; try discriminate.
    destruct (grun n2 (Act (ARet (-2))) s3 b3) as [[s4 b4 t4|b4]|] eqn:E4; try discriminate.
    injection E2 as <- <- <-.
    set (m := Nat.max n1 n2). exists (S (S m)), b4, ((l1 ++ t3) ++ t4). split.
    - remember (S m) as m1. cbn [run]. subst m1.
      assert (A : grun (S m) sa r0 be = Some (Match s3 b3 (l1 ++ t3))).
      { rewrite Esa at 1. cbn [run]. rewrite (run_le _ _ n1 m _ _ _ _ ltac:(lia) E1). rewrite <- Esa.
        rewrite (run_le _ _ n2 m _ _ _ _ ltac:(lia) E3). reflexivity. }
      rewrite A. rewrite (run_le _ _ n2 (S m) _ _ _ _ ltac:(lia) E4). reflexivity.
    - intros b st L. destruct (X1 b st L) as (st1 & Y1 & Z1). destruct (X2 b st1 Z1) as (st2 & Y2 & Z2).
      exists st2. split; [|exact Z2]. rewrite <- app_assoc. rewrite (exec_app_ok _ _ _ _ _ _ Y1). exact Y2.
  Qed.
  Lemma loop_end k s r t : loop k s r t -> fails (alts k) r -> yields (Rul (rule_at k)) s r t.
  Proof. intros C F. apply C. eapply does_seq; [apply does_star0, F | apply does_aret]. Qed.

  (** ** Operators *)
  Definition gap_chars : list Z := [32; 9; 11; 12; 10; 13; 35].
  Lemma gap_head g : lines g -> g <> [] -> exists c g', g = c :: g' /\ In c gap_chars.
  Proof.
    intros [|c g' B _|g' _|g' _|t g' _ _] N; [contradiction N; reflexivity| | | |];
      (eexists; eexists; split; [reflexivity|]); cbn; try tauto. unfold blank in B. lia.
  Qed.
  Lemma bin_step op nx p w g s r t t1 : (grammar op = Str w >> nl_ \/ exists c, w = [c] /\ grammar op = Chr c >> nl_) -> nvars op = 0 ->
    lines g -> heads no_nl (s ++ r) = true -> yields (Rul nx) (s ++ r) r t1 ->
    does (holds2 t) (bin_alt op nx p) (w ++ g ++ s ++ r) r (holds2 (SSrc (Src p t t1 SNil))).
  Proof.
    intros W V G O Y. unfold bin_alt. eapply skips_does_seq.
    - apply skips_rul; [exact V|]. destruct W as [-> | (c & -> & ->)]; (eapply skips_seq; [|apply skips_nl; eassumption]); [apply skips_str | apply skips_chr].
    - eapply does_seq; [eapply does_var' with (K' := fun v => v (-2) = t /\ v (-1) = t1); [exact Y | lia | lia |]|].
      + intros v1 v2 E H1 H2. rewrite H2 by lia. auto.
      + apply (does_set str dbl 2 (fun v => v (-2) = t /\ v (-1) = t1) (fun v => v (-2) = SSrc (Src p t t1 SNil)) (-2) _ _ (fun v => SSrc (Src p (v (-2)) (v (-1)) SNil))); [lia | lia | |].
        * intros tt st (E1 & E2). reflexivity.
        * intros v v' (E1 & E2) H1 H2. rewrite H1, E1, E2. reflexivity.
  Qed.
  Definition op_lev (p : part) : nat :=
    match p with
    | POW => 1 | TIMES | DIV | REM => 2 | PLUS | MINUS => 3 | BITL | BITR => 4
    | GTE | GT | LTE | LT => 7 | EQ | NEQ => 8
    | _ => 0
    end%nat.
  Lemma op_step p g s r t t1 : src_op p = true -> lines g -> g <> [] -> heads no_nl (s ++ r) = true ->
    yields (Rul (rule_at (op_lev p - 1))) (s ++ r) r t1 ->
    does (holds2 t) (alts (op_lev p)) (op_text p ++ g ++ s ++ r) r (holds2 (SSrc (Src p t t1 SNil))).
  Proof.
    intros P G N O Y. destruct (gap_head g G N) as (c & g' & E & C).
    assert (B : forall op nx w, (grammar op = Str w >> nl_ \/ exists c, w = [c] /\ grammar op = Chr c >> nl_) -> nvars op = 0 ->
      nx = rule_at (op_lev p - 1) -> w = op_text p -> does (holds2 t) (bin_alt op nx p) (op_text p ++ g ++ s ++ r) r (holds2 (SSrc (Src p t t1 SNil)))).
    { intros op nx w H1 H2 -> <-. apply bin_step; assumption. }
    assert (F : forall e q, forallb (fun c => is_PF (prun 200 e (q ++ [c]) false)) gap_chars = true -> fails e (q ++ g ++ s ++ r)).
    { intros e q H. pose proof (all_PF 200 (fun _ => e) (fun c => q ++ [c]) _ H c (g' ++ s ++ r) C) as K. cbv beta in K.
      subst g. rewrite <- app_assoc in K. exact K. }
    destruct p; try discriminate P; cbn [op_lev alts op_text] in *;
      repeat first [ apply does_alt1; eapply B; [first [left; reflexivity | right; eexists; split; reflexivity] | reflexivity | reflexivity | reflexivity]
                   | eapply B; [first [left; reflexivity | right; eexists; split; reflexivity] | reflexivity | reflexivity | reflexivity]
                   | apply does_alt2; [apply F; vm_compute; reflexivity|] ].
  Qed.

  (** ** What follows *)
  Definition enders : list rule := [r_block; r_closure; r_pplus; r_mminus; r_value; r_list; r_call].
  Lemma ends_pre r : heads okc r = true -> no_frac r -> (forall e, In e enders -> fails (Rul e) r) -> ends r.
  Proof.
    intros H0 H1 X.
    constructor; [constructor; [constructor; [split; assumption|..]|..]|]; apply X; unfold enders; cbn [In]; tauto.
  Qed.
  Notation all_fail k p := (forallb (fun j => is_PF (prun 200 (alts j) p false)) (seq 1 k)).
  Lemma all_fails k p u j : all_fail k p = true -> (1 <= j <= k)%nat -> fails (alts j) (p ++ u).
  Proof.
    intros H J. exact (all_PF 200 alts (fun _ => p) _ H j u ltac:(apply in_seq; lia)).
  Qed.
  Notation ends_fail p := (forallb (fun e => is_PF (prun 200 (Rul e) p false)) enders).
  Lemma ends_fails p u e : ends_fail p = true -> In e enders -> fails (Rul e) (p ++ u).
  Proof.
    intros H J. exact (all_PF 200 (fun e => Rul e) (fun _ => p) _ H e u J).
  Qed.
  Lemma fol_pre k p u : p <> [] -> heads (fun c => okc c && negb (c =? 46)) p = true -> ends_fail p = true -> all_fail k p = true -> fol k (p ++ u).
  Proof.
    intros N H E A. split; [|intros j J; exact (all_fails k p u j A J)].
    apply ends_pre; [| |intros e; exact (ends_fails p u e E)].
    - destruct p as [|c p]; [contradiction N; reflexivity|]. cbn [heads app] in *. lia.
    - destruct p as [|c p]; [contradiction N; reflexivity|]. cbn [heads app no_frac] in *.
      destruct c as [|c|c]; try exact Logic.I. do 6 (destruct c as [c|c|]; try exact Logic.I). discriminate H.
  Qed.
  Lemma fol_op p c u : src_op p = true -> In c gap_chars -> fol (op_lev p - 1) (op_text p ++ c :: u).
  Proof.
    intros P C. replace (op_text p ++ c :: u) with ((op_text p ++ [c]) ++ u) by (rewrite <- app_assoc; reflexivity).
    apply fol_pre.
    - intros E. symmetry in E. exact (app_cons_not_nil _ _ _ E).
    - destruct p; try discriminate P; reflexivity.
    - destruct p; try discriminate P; cbn in C; repeat destruct C as [<-|C]; try contradiction; vm_compute; reflexivity.
    - destruct p; try discriminate P; cbn in C; repeat destruct C as [<-|C]; try contradiction; vm_compute; reflexivity.
  Qed.
  (** closing characters *)
  Definition closes (r : list Z) : Prop :=
    match r with [] => True | c :: _ => In c [41; 44; 10; 13; 46] end /\ no_frac r.
  Lemma fol_nil : fol 10 [].
  Proof.
    split.
    - constructor; [constructor; [constructor; [split; [reflexivity | exact Logic.I]|..]|..]|]; apply (prun_fails_eof 200); vm_compute; reflexivity.
    - intros j J. do 11 (destruct j as [|j]; [first [lia | apply (prun_fails_eof 200); vm_compute; reflexivity]|]). lia.
  Qed.
  Lemma fol_closes r : closes r -> fol 10 r.
  Proof.
    intros [H F]. destruct r as [|c r]; [exact fol_nil|].
    cbn in H. repeat destruct H as [<-|H]; try contradiction;
      [apply (fol_pre 10 [41]) | apply (fol_pre 10 [44]) | apply (fol_pre 10 [10]) | apply (fol_pre 10 [13]) |];
      try discriminate; try reflexivity; try (vm_compute; reflexivity).
    split; [|intros j J; apply (all_fails 10 [46]); [vm_compute; reflexivity | exact J]].
    apply ends_pre; [reflexivity | exact F|]. intros e. apply (ends_fails [46]). vm_compute. reflexivity.
  Qed.
  (** = *)
  Lemma fol_assign y : heads (fun c => negb (c =? 61)) y = true -> fol 8 (61 :: y).
  Proof.
    intros H. pose proof (fol_pre 7 [61] y ltac:(discriminate) eq_refl ltac:(vm_compute; reflexivity) ltac:(vm_compute; reflexivity)) as [E A].
    split; [exact E|]. intros j J. destruct (Nat.eq_dec j 8) as [->|N]; [|apply (A j); lia].
    cbn [alts]. apply fails_alt; [pf [61]|]. apply fails_alt; [|pf [61]].
    unfold bin_alt. apply fails_seq1, misses_fails, misses_rul. cbn [grammar]. apply misses_seq1. intros be. exists 1%nat. cbn [run match_str].
    rewrite Z.eqb_refl. destruct y as [|c y]; [reflexivity|]. cbn [heads] in H. replace (c =? 61) with false by lia. reflexivity.
  Qed.
  (** and, or *)
  Lemma gap_stops g s : lines g -> g <> [] -> stops (g ++ s).
  Proof.
    intros G N. destruct (gap_head g G N) as (c & g' & -> & C). unfold stops. cbn [app heads].
    cbn in C. repeat destruct C as [<-|C]; try contradiction; reflexivity.
  Qed.
  Lemma skips_and g s : lines g -> g <> [] -> heads no_nl s = true -> skips (Rul r_and) (s_and ++ g ++ s) s.
  Proof.
    intros G N O. apply skips_rul; [reflexivity|]. cbn [grammar]. eapply skips_seq; [|apply skips_nl; eassumption].
    apply skips_alt2; [cbn [app s_and]; apply misses_str; lia|]. apply skips_word; [reflexivity | apply gap_stops; assumption].
  Qed.
  Lemma skips_or g s : lines g -> g <> [] -> heads no_nl s = true -> skips (Rul r_or) (s_or ++ g ++ s) s.
  Proof.
    intros G N O. apply skips_rul; [reflexivity|]. cbn [grammar]. eapply skips_seq; [|apply skips_nl; eassumption].
    apply skips_alt2; [cbn [app s_or]; apply misses_str; lia|]. apply skips_word; [reflexivity | apply gap_stops; assumption].
  Qed.
  Lemma fails_assign y : heads (fun c => negb (c =? 61)) y = true -> fails (Rul r_assign) y.
  Proof.
    intros H. apply misses_fails, misses_rul. cbn [grammar]. apply misses_seq1. destruct y as [|c y]; [apply misses_chr_nil|].
    apply misses_chr. cbn [heads] in H. lia.
  Qed.
  Lemma fol_bool w g s : w = s_and \/ w = s_or -> lines g -> g <> [] -> heads no_nl s = true -> heads (fun c => negb (c =? 61)) s = true ->
    fol 9 (w ++ g ++ s).
  Proof.
    intros W G N O Q. destruct (gap_head g G N) as (c & g' & E & C).
    assert (F8 : fol 8 (w ++ g ++ s)).
    { subst g. replace (w ++ (c :: g') ++ s) with ((w ++ [c]) ++ g' ++ s) by (rewrite <- app_assoc; reflexivity).
      apply fol_pre; destruct W as [-> | ->]; try discriminate; try reflexivity;
        cbn in C; repeat destruct C as [<-|C]; try contradiction; vm_compute; reflexivity. }
    split; [apply F8|]. intros j J. destruct (Nat.eq_dec j 9) as [->|Nj]; [|apply (f_alts _ _ F8); lia].
    cbn [alts]. unfold alts_sets.
    destruct W as [-> | ->].
    - do 3 (apply fails_alt; [pf s_and|]). apply fails_alt; [|pf s_and].
      eapply (fails_seq2 str dbl) with (I := fun _ _ => False); [apply skips_does, skips_and; eassumption|]. apply fails_seq1, fails_assign, Q.
    - do 2 (apply fails_alt; [pf s_or|]). apply fails_alt; [|pf s_or].
      eapply (fails_seq2 str dbl) with (I := fun _ _ => False); [apply skips_does, skips_or; eassumption|]. apply fails_seq1, fails_assign, Q.
  Qed.
  Lemma bool_step p w g s r t t1 : (p = AND /\ w = s_and) \/ (p = OR /\ w = s_or) -> lines g -> g <> [] -> heads no_nl (s ++ r) = true ->
    yields (Rul r_sets) (s ++ r) r t1 ->
    does (holds2 t) (alts 10) (w ++ g ++ s ++ r) r (holds2 (SSrc (Src p t t1 SNil))).
  Proof.
    intros W G N O Y. cbn [alts].
    assert (B : forall op, skips (Rul op) (w ++ g ++ s ++ r) (s ++ r) -> does (holds2 t) (bin_alt op r_sets p) (w ++ g ++ s ++ r) r (holds2 (SSrc (Src p t t1 SNil)))).
    { intros op S. unfold bin_alt. eapply skips_does_seq; [exact S|].
      eapply does_seq; [eapply does_var' with (K' := fun v => v (-2) = t /\ v (-1) = t1); [exact Y | lia | lia |]|].
      + intros v1 v2 E H1 H2. rewrite H2 by lia. auto.
      + apply (does_set str dbl 2 (fun v => v (-2) = t /\ v (-1) = t1) (fun v => v (-2) = SSrc (Src p t t1 SNil)) (-2) _ _ (fun v => SSrc (Src p (v (-2)) (v (-1)) SNil))); [lia | lia | |].
        * intros tt st (E1 & E2). reflexivity.
        * intros v v' (E1 & E2) H1 H2. rewrite H1, E1, E2. reflexivity. }
    destruct W as [(-> & ->)|(-> & ->)].
    - apply does_alt2; [pf s_and|]. apply B, skips_and; assumption.
    - apply does_alt1. apply B, skips_or; assumption.
  Qed.
  (** assignment *)
  Lemma y_assign s0 g s r t t1 : lines g -> heads no_nl (s ++ r) = true ->
    yields (Rul r_eqs) s0 (61 :: g ++ s ++ r) t -> yields (Rul r_sets) (s ++ r) r t1 ->
    yields (Rul r_sets) s0 r (SSrc (Src ASSIGN t t1 SNil)).
  Proof.
    intros G O Y Y1. apply yields_rul. cbn [grammar nvars].
    eapply does_seq; [apply does_var2, Y|]. eapply does_seq; [apply does_opt1, does_alt1 | apply does_aret].
    eapply skips_does_seq.
    - apply skips_rul; [reflexivity|]. cbn [grammar]. eapply skips_seq; [apply skips_chr | apply skips_nl; eassumption].
    - eapply does_seq; [eapply does_var' with (K' := fun v => v (-2) = t /\ v (-1) = t1); [exact Y1 | lia | lia |]|].
      + intros v1 v2 E H1 H2. rewrite H2 by lia. auto.
      + apply (does_set str dbl 2 (fun v => v (-2) = t /\ v (-1) = t1) (fun v => v (-2) = SSrc (Src ASSIGN t t1 SNil)) (-2) _ _ (fun v => SSrc (Src ASSIGN (v (-2)) (v (-1)) SNil))); [lia | lia | |].
        * intros tt st (E1 & E2). reflexivity.
        * intros v v' (E1 & E2) H1 H2. rewrite H1, E1, E2. reflexivity.
  Qed.
End Expr.
