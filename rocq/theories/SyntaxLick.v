(** Licks: what the rules between square brackets match and build. *)
From Verif Require Import Base WordModel WordProofs NumModel NumProofs CompileModel SrcSpec PegModel PegTerm SyntaxModel SyntaxTerm PegProofs TextSpec SyntaxLex SyntaxLit SyntaxCall.
From Coq Require Import ZifyBool Arith.PeanoNat.

Section Lick.
  Context (str dbl : list Z -> Z).
  Notation skips := (skips str dbl).
  Notation does := (does str dbl).
  Notation yields := (yields str dbl).

  Lemma yields_in n (K : (Z -> sf) -> Prop) e s r t : yields e s r t -> 0 <= n -> does (fr n K) e s r (out n t).
  Proof.
    intros H N be. destruct (H be) as (m & be1 & l & E & X). exists m, be1, l. split; [exact E|].
    intros b st (L1 & L2 & L3). destruct (X st st eq_refl) as (st' & Y & (Z1 & Z2 & Z3)). exists st'. split; [exact Y|].
    split; [lia|]. split; [|exact Z3]. intros i Hi. rewrite Z2 by lia. apply L2, Hi.
  Qed.
  (** what follows an item *)
  Definition lick_close (r : list Z) : Prop := exists g r', r = 93 :: g ++ r' /\ spaces g /\ heads no_gap r' = true.
  Definition no_open (c : Z) : bool := negb (c =? 123) && negb (c =? 91) && negb (c =? 40).
  Definition item_end (r : list Z) : Prop := lick_close r \/
    exists a r', r = a ++ r' /\ separator a /\ heads no_sep r' = true /\ heads no_open r' = true.
  Lemma item_head r : item_end r -> exists c t, r = c :: t /\ (c = 93 \/ c = 44 \/ c = 10 \/ (c = 13 /\ exists t', t = 10 :: t')).
  Proof.
    intros [(g & r' & -> & _)|(a & r' & -> & (g & _ & [->|[->| ->]]) & _)]; cbn [app]; eexists; eexists; (split; [reflexivity|]); eauto 8.
  Qed.
  Lemma item_base r : item_end r -> base r.
  Proof.
    intros H. destruct (item_head r H) as (c & t & -> & C). split; [cbn [heads]; unfold okc, no_gap, blank; lia|].
    destruct C as [->|[->|[->|(-> & _)]]]; exact Logic.I.
  Qed.
  Ltac each H c t := destruct (item_head _ H) as (c & t & -> & [->|[->|[->|(-> & (? & ->))]]]); [pf [93]|pf [44]|pf [10]|pf [13; 10]].
  Lemma item_value r : item_end r -> fails (Rul r_value) r.
  Proof. intros H. each H c t. Qed.
  Lemma item_list r : item_end r -> fails (Rul r_list) r.
  Proof. intros H. each H c t. Qed.
  Lemma item_block r : item_end r -> fails (Rul r_block) r.
  Proof. intros H. each H c t. Qed.
  Lemma item_loose r : item_end r -> fails (Rul r_loose) r.
  Proof.
    intros H. apply fails_rul. cbn [grammar]. apply fails_alt; [exact (item_value r H)|].
    apply fails_seq1, fails_var, fails_rul. cbn [grammar].
    eapply (fails_seq2 str dbl) with (I := fun _ _ => False); [apply bdoes_does; intros be; eexists; apply bdoes_bg|].
    apply fails_seq1, fails_plus. destruct H as [(g & r' & -> & G & R)|(a & r' & -> & A & R & O)].
    - eapply (fails_seq2 str dbl) with (I := fun _ _ => False); [apply does_nt; pf [93]|]. apply fails_seq1.
      eapply (fails_nt str dbl) with (I := fun _ _ => False). apply skips_does, skips_rul; [reflexivity|]. cbn [grammar].
      eapply skips_seq; [apply skips_chr | apply skips_sp; assumption].
    - apply fails_seq1. eapply (fails_nt str dbl) with (I := fun _ _ => False). apply skips_does, skips_rul; [reflexivity|]. cbn [grammar].
      eapply skips_seq; [apply skips_sep; eassumption|].
      assert (M : forall x, x = 123 \/ x = 91 \/ x = 40 -> misses (Chr x) r').
      { intros x X. destruct r' as [|c r']; [apply misses_chr_nil|]. apply misses_chr. cbn [heads] in O. unfold no_open in O. lia. }
      eapply skips_seq; [apply skips_nt, M; tauto|]. eapply skips_seq; [apply skips_nt, M; tauto|]. apply skips_nt, M. tauto.
  Qed.
  Lemma y_loose s r v : yields (Rul r_value) s r v -> yields (Rul r_loose) s r v.
  Proof. intros Y. apply yields_rul. cbn [grammar nvars]. apply does_alt1, yields_in; [exact Y | lia]. Qed.

  (** ** Items *)
  Definition bnd (m : Z) : (Z -> sf) -> Prop := fun v => v (-3) = SVal m.
  Lemma does_word x s r : name_at str x s r -> heads no_gap r = true ->
    exists q, does (fr 3 (fun _ => True)) (Var (-3) r_msg) (s ++ r) q (fr 3 (bnd x)) /\ skips sp_ q r.
  Proof.
    intros [(c & u & q & g & -> & C & U & Q & I & Iq & G & St & X)] B. subst x. exists (g ++ r). split; [|apply skips_sp; assumption].
    replace ((c :: u ++ q ++ g) ++ r) with ((c :: u ++ q) ++ g ++ r) by (cbn [app]; rewrite <- !app_assoc; reflexivity).
    eapply does_var'; [apply y_msg; assumption | lia | lia | intros v1 v2 _ E _; exact E].
  Qed.
  (** an item begins with its name: the alternatives continue after it *)
  Lemma word_then x s r k q J : name_at str x s r -> heads no_gap r = true -> does (fr 3 (bnd x)) k r q J ->
    does (fr 3 (fun _ => True)) (Var (-3) r_msg >> sp_ >> k) (s ++ r) q J.
  Proof.
    intros N G D. destruct (does_word x s r N G) as (m & D1 & S1). eapply does_seq; [exact D1|]. eapply skips_does_seq; [exact S1 | exact D].
  Qed.
  Lemma word_fails x s r k : name_at str x s r -> heads no_gap r = true -> fails k r ->
    fails (Var (-3) r_msg >> sp_ >> k) (s ++ r).
  Proof.
    intros N G F. destruct (does_word x s r N G) as (m & D1 & S1). eapply (fails_seq2 str dbl); [exact D1|].
    eapply (fails_seq2 str dbl) with (I := fun _ _ => False); [apply skips_does, S1 | exact F].
  Qed.
  Lemma then_fails k ra s r1 t b : yields (Rul ra) s r1 t -> - 3 <= k < 0 -> fails b r1 -> fails (Var k ra >> b) s.
  Proof.
    intros Y K F. eapply (fails_seq2 str dbl) with (I := fr 3 (fun _ => True)); [|exact F].
    eapply does_var' with (K' := fun _ => True); [exact Y | lia | lia | intros ? ? ? ? ?; exact Logic.I].
  Qed.
  Lemma set_v x t : bind_to (-1) t (bnd x) (fun v => bnd x v /\ v (-1) = t).
  Proof. intros v v' H E F. split; [|exact E]. unfold bnd. rewrite F by lia. exact H. Qed.
  Lemma set_t x t : bind_to (-2) t (bnd x) (fun v => bnd x v /\ v (-2) = t).
  Proof. intros v v' H E F. split; [|exact E]. unfold bnd. rewrite F by lia. exact H. Qed.
  (** n *)
  Lemma y_item0 x s r : name_at str x s r -> item_end r -> yields (Rul r_lick_item) (s ++ r) r (SSrc (Src LICK (SVal x) SNil SNil)).
  Proof.
    intros N E. pose proof (base_gap _ (item_base r E)) as G. apply yields_rul. cbn [grammar nvars].
    do 2 (apply does_alt2; [eapply word_fails; [exact N | exact G | apply fails_seq1, fails_var, item_list, E]|]).
    do 2 (apply does_alt2; [eapply word_fails; [exact N | exact G | apply fails_seq1, fails_var, item_loose, E]|]).
    apply does_alt1. eapply word_then; [exact N | exact G|]. apply does_ret'. intros t st K. cbn [do_act]. unfold bnd in K. rewrite K. reflexivity.
  Qed.
  (** n v *)
  Lemma y_item1 x s r0 r v : name_at str x s r0 -> heads no_gap r0 = true -> fails (Rul r_list) r0 -> yields (Rul r_value) r0 r v -> item_end r ->
    yields (Rul r_lick_item) (s ++ r0) r (SSrc (Src LICK (SVal x) v SNil)).
  Proof.
    intros N G F Y E. apply y_loose in Y. apply yields_rul. cbn [grammar nvars].
    do 2 (apply does_alt2; [eapply word_fails; [exact N | exact G | apply fails_seq1, fails_var, F]|]).
    apply does_alt2; [eapply word_fails; [exact N | exact G | eapply then_fails; [exact Y | lia | apply fails_seq1, fails_var, item_list, E]]|].
    apply does_alt1. eapply word_then; [exact N | exact G|].
    eapply does_seq; [eapply does_var'; [exact Y | lia | lia | apply set_v]|].
    apply does_ret'. intros t st (K1 & K2). cbn [do_act]. unfold bnd in K1. rewrite K1, K2. reflexivity.
  Qed.
  (** n (..) *)
  Lemma y_item2 x s r0 r t : name_at str x s r0 -> heads no_gap r0 = true -> yields (Rul r_list) r0 r t -> item_end r ->
    yields (Rul r_lick_item) (s ++ r0) r (SSrc (Src LICK (SVal x) SNil t)).
  Proof.
    intros N G Y E. apply yields_rul. cbn [grammar nvars].
    apply does_alt2; [eapply word_fails; [exact N | exact G | eapply then_fails; [exact Y | lia | apply fails_seq1, fails_var, item_loose, E]]|].
    apply does_alt1. eapply word_then; [exact N | exact G|].
    eapply does_seq; [eapply does_var'; [exact Y | lia | lia | apply set_t]|].
    apply does_ret'. intros t0 st (K1 & K2). cbn [do_act]. unfold bnd in K1. rewrite K1, K2. reflexivity.
  Qed.
  (** n v (..) *)
  Lemma y_item3 x s r0 r1 r v t : name_at str x s r0 -> heads no_gap r0 = true -> fails (Rul r_list) r0 -> yields (Rul r_value) r0 r1 v ->
    yields (Rul r_list) r1 r t ->
    yields (Rul r_lick_item) (s ++ r0) r (SSrc (Src LICK (SVal x) v t)).
  Proof.
    intros N G F Y L. apply y_loose in Y. apply yields_rul. cbn [grammar nvars].
    do 2 (apply does_alt2; [eapply word_fails; [exact N | exact G | apply fails_seq1, fails_var, F]|]).
    apply does_alt1. eapply word_then; [exact N | exact G|].
    eapply does_seq; [eapply does_var'; [exact Y | lia | lia | apply set_v]|].
    eapply does_seq; [eapply does_var' with (K' := fun w => bnd x w /\ w (-1) = v /\ w (-2) = t); [exact L | lia | lia|]|].
    { intros v1 v2 (K1 & K2) H1 H2. unfold bnd in *. rewrite !H2 by lia. auto. }
    apply does_ret'. intros t0 st (K1 & K2 & K3). cbn [do_act]. unfold bnd in K1. rewrite K1, K2, K3. reflexivity.
  Qed.
  (** n (..) v *)
  Lemma y_item4 x s r0 r1 r v t : name_at str x s r0 -> heads no_gap r0 = true -> yields (Rul r_list) r0 r1 t -> yields (Rul r_value) r1 r v ->
    yields (Rul r_lick_item) (s ++ r0) r (SSrc (Src LICK (SVal x) v t)).
  Proof.
    intros N G L Y. apply y_loose in Y. apply yields_rul. cbn [grammar nvars].
    apply does_alt1. eapply word_then; [exact N | exact G|].
    eapply does_seq; [eapply does_var'; [exact L | lia | lia | apply set_t]|].
    eapply does_seq; [eapply does_var' with (K' := fun w => bnd x w /\ w (-2) = t /\ w (-1) = v); [exact Y | lia | lia|]|].
    { intros v1 v2 (K1 & K2) H1 H2. unfold bnd in *. rewrite !H2 by lia. auto. }
    apply does_ret'. intros t0 st (K1 & K2 & K3). cbn [do_act]. unfold bnd in K1. rewrite K1, K2, K3. reflexivity.
  Qed.
  (** a literal *)
  Lemma fails_word k s : fails (Rul r_msg) s -> fails (Var (-3) r_msg >> k) s.
  Proof. intros F. apply fails_seq1, fails_var, F. Qed.
  Lemma y_item5 s r v : fails (Rul r_msg) s -> yields (Rul r_value) s r v -> heads no_gap r = true ->
    yields (Rul r_lick_item) s r (SSrc (Src LICK v SNil SNil)).
  Proof.
    intros F Y B. apply y_loose in Y. apply yields_rul. cbn [grammar nvars].
    do 5 (apply does_alt2; [apply fails_word, F|]).
    eapply does_seq; [eapply does_var' with (K' := fun w => w (-1) = v); [exact Y | lia | lia | intros v1 v2 _ E _; exact E]|].
    eapply skips_does_seq; [apply (skips_sp str dbl []); [reflexivity | exact B]|].
    apply does_ret'. intros t st E. cbn [do_act]. rewrite E. reflexivity.
  Qed.
  (** ** The brackets *)
  Lemma y_licks g s g2 r v : lines g -> heads no_nl (s ++ 93 :: g2 ++ r) = true -> spaces g2 -> heads no_gap r = true ->
    yields (Rul r_lick_items) (s ++ 93 :: g2 ++ r) (93 :: g2 ++ r) v ->
    yields (Rul r_lick) (91 :: g ++ s ++ 93 :: g2 ++ r) r (SSrc (S1 LIST v)).
  Proof.
    intros G O G2 R Y. apply yields_rul. cbn [grammar nvars].
    eapply skips_does_seq; [apply skips_rul; [reflexivity|]; cbn [grammar]; eapply skips_seq; [apply skips_chr | apply skips_nl; eassumption]|].
    eapply does_seq; [eapply does_var' with (K' := fun w => w (-1) = v); [exact Y | lia | lia | intros v1 v2 _ E _; exact E]|].
    eapply skips_does_seq; [apply skips_rul; [reflexivity|]; cbn [grammar]; eapply skips_seq; [apply skips_chr | apply skips_sp; eassumption]|].
    apply does_ret'. intros t st E. cbn [do_act]. rewrite E. reflexivity.
  Qed.
  Lemma y_lick g s g2 r v : lines g -> heads no_nl (s ++ 93 :: g2 ++ r) = true -> spaces g2 -> heads no_gap r = true ->
    yields (Rul r_lick_items) (s ++ 93 :: g2 ++ r) (93 :: g2 ++ r) v ->
    yields (Rul r_value) (91 :: g ++ s ++ 93 :: g2 ++ r) r (SSrc (S1 LIST v)).
  Proof.
    intros G O G2 R Y. apply yields_rul. cbn [grammar nvars].
    do 2 (apply does_alt2; [pf [91]|]). apply does_alt1, yields_in; [|lia]. apply y_licks; assumption.
  Qed.
  (** x[..]: a name with no white space before the bracket *)
  Lemma y_at w s r t : ident_q w -> stops s -> yields (Rul r_lick) s r t -> fails (Rul r_immed) (w ++ s) -> heads no_gap r = true ->
    yields (Rul r_value) (w ++ s) r (SSrc (S1 VALUE (SSrc (Src LICK (SSrc (S1 MSG (SVal (str w)))) t SNil)))).
  Proof.
    intros W St Y F R. apply yields_rul. cbn [grammar nvars].
    apply does_alt2; [apply fails_seq1, fails_var, F|]. apply does_alt1.
    eapply does_seq.
    { eapply does_var' with (K' := fun v => v (-1) = SSrc (Src LICK (SSrc (S1 MSG (SVal (str w)))) t SNil)); [|lia|lia|intros v1 v2 _ E _; exact E].
      apply yields_rul. cbn [grammar nvars].
      eapply does_seq; [eapply does_var' with (K' := fun v => v (-2) = SVal (str w)); [apply y_msg; assumption | lia | lia | intros v1 v2 _ E _; exact E]|].
      eapply does_seq; [eapply does_var' with (K' := fun v => v (-2) = SVal (str w) /\ v (-1) = t); [exact Y | lia | lia | intros v1 v2 E1 E2 E3; split; [rewrite E3 by lia; exact E1 | exact E2]]|].
      apply does_ret'. intros tt st (E1 & E2). cbn [do_act]. rewrite E1, E2. reflexivity. }
    eapply skips_does_seq; [apply (skips_sp str dbl []); [reflexivity | exact R]|].
    apply does_ret'. intros t0 st E. cbn [do_act]. rewrite E. reflexivity.
  Qed.
End Lick.
