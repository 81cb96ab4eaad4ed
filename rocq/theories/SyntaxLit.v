(** Literals: the rule for values matches the texts of literals and builds the tree. *)
From Verif Require Import Base WordModel WordProofs NumModel NumProofs CompileModel SrcSpec PegModel PegTerm SyntaxModel SyntaxTerm PegProofs TextSpec SyntaxLex.
From Coq Require Import ZifyBool Arith.PeanoNat.
Ltac Zify.zify_post_hook ::= Z.div_mod_to_equations.

(** failure decided by a known beginning of the text *)
Ltac pf p := refine (prun_fails 200 _ p _ _); vm_compute; reflexivity.

Lemma misses_seq2 str dbl a b s s1 : skips str dbl a s s1 -> misses b s1 -> misses (Seq a b) s.
Proof.
  intros H1 H2 be. destruct (H1 be) as (n & t & E1 & _). destruct (H2 be) as (m & E2).
  exists (S (Nat.max n m)). cbn [run]. rewrite (run_le _ _ n _ _ _ _ _ (Nat.le_max_l n m) E1).
  rewrite (run_le _ _ m _ _ _ _ _ (Nat.le_max_r n m) E2). reflexivity.
Qed.
Lemma misses_plus a s : misses a s -> misses (Plus a) s.
Proof. intros H be. destruct (misses_seq1 a (Star a) s H be) as (n & E). exists (S n). exact E. Qed.

(** ** Decimal digits *)
Definition digits (l : list Z) : Prop := forallb digit l = true.
Lemma dec_digits_shape f : forall n acc, 0 < n < 10 ^ Z.of_nat f -> digits acc ->
  exists d ds, dec_digits f n acc = d :: ds /\ 49 <= d <= 57 /\ digits ds.
Proof.
  induction f as [|f IH]; intros n acc H A; [cbn in H; lia|]. cbn [dec_digits].
  assert (D : digits ((48 + n mod 10) :: acc)).
  { unfold digits. cbn [forallb]. rewrite A. unfold digit, between. lia. }
  destruct (n / 10 =? 0) eqn:E.
  - exists (48 + n mod 10), acc. split; [reflexivity|]. split; [lia | exact A].
  - apply IH; [|exact D]. rewrite Nat2Z.inj_succ, Z.pow_succ_r in H by lia. lia.
Qed.
Lemma ld_shape n : 0 <= n < two62 -> (n = 0 /\ sprintf_ld n = [48]) \/ exists d ds, sprintf_ld n = d :: ds /\ 49 <= d <= 57 /\ digits ds.
Proof.
  intros H. unfold sprintf_ld. replace (n <? 0) with false by lia.
  destruct (n =? 0) eqn:E; [left; apply Z.eqb_eq in E; subst; split; reflexivity|]. right.
  apply dec_digits_shape; [|reflexivity]. unfold two62 in H. change (10 ^ Z.of_nat 20) with 100000000000000000000. lia.
Qed.

Section Lit.
  Context (str dbl : list Z -> Z).
  Notation skips := (skips str dbl).
  Notation does := (does str dbl).
  Notation yields := (yields str dbl).
  Notation bdoes := (bdoes str dbl).

  (** after a number: no fraction *)
  Definition no_frac (r : list Z) : Prop := match r with 46 :: d :: _ => digit d = false | _ => True end.
  Lemma skips_digits ds r : digits ds -> stops r -> skips (Star (Cls is_digit)) (ds ++ r) r.
  Proof.
    intros D R. induction ds as [|d ds IH]; cbn [app].
    - apply skips_star0. destruct r as [|c r]; [apply misses_cls_nil|]. apply misses_cls.
      unfold stops in R. cbn [heads] in R. unfold word_char, name_char in R. change (is_digit c) with (digit c). destruct (digit c); [|reflexivity]. rewrite !orb_true_r in R. cbn in R. rewrite ?orb_true_r in R. discriminate R.
    - unfold digits in D. cbn [forallb] in D. apply andb_true_iff in D. destruct D as [D1 D2].
      eapply skips_star1; [apply skips_cls; exact D1 | apply IH, D2].
  Qed.
  Lemma b_dec n r be : 0 <= n < two62 -> stops r -> no_frac r ->
    exists be', text_of be' = sprintf_ld n /\
    bdoes be is (Rul r_dec) (sprintf_ld n ++ r) r (out 0 (SVal 3)) be'.
  Proof.
    intros N R F. exists (sprintf_ld n ++ r, r). split; [apply text_app|].
    apply bdoes_rul0; [reflexivity|]. cbn [grammar].
    eapply bdoes_seq; [apply bdoes_bg|].
    eapply bdoes_seq; [apply bdoes_skips with (r := r)|].
    { destruct (ld_shape n N) as [(-> & ->)|(d & ds & -> & D & Ds)]; cbn [app].
      - apply skips_alt1, skips_chr.
      - apply skips_alt2; [apply misses_chr; lia|].
        eapply skips_seq; [apply skips_opt0, misses_chr; lia|].
        eapply skips_seq; [apply skips_cls; unfold rng; lia|]. apply skips_digits; assumption. }
    eapply bdoes_seq.
    { apply bdoes_act with (J := out 0 (SVal 3)). intros b st <-. eexists. split; [reflexivity|]. repeat split; cbn; lia. }
    eapply bdoes_seq.
    { apply bdoes_skips, skips_opt0. destruct r as [|c r]; [apply misses_seq1, misses_chr_nil|].
      destruct (Z.eq_dec c 46) as [->|C]; [|apply misses_seq1, misses_chr; exact C].
      eapply (misses_seq2 str dbl); [apply skips_chr|]. apply misses_seq1, misses_plus. destruct r as [|d r]; [apply misses_cls_nil|].
      apply misses_cls. exact F. }
    eapply bdoes_seq.
    { apply bdoes_skips, skips_opt0, misses_seq1. destruct r as [|c r]; [apply misses_chr_nil|].
      apply misses_chr. intros ->. discriminate R. }
    apply bdoes_en.
  Qed.

  (** ** Quoted strings *)
  Definition has_buf (acc : list Z) (b st : pst) : Prop := top st = top b /\ (forall i, i < top b -> vals st i = vals b i) /\ pbuf st = acc.
  Lemma skips_quotable c s : quotable c = true -> skips (Rul r_utf8) (c :: s) s.
  Proof.
    intros H. unfold quotable in H. destruct (printing c) eqn:P; [apply skips_utf8, P|].
    assert (c = 10) by lia. subst c. apply skips_rul; [reflexivity|]. cbn [grammar].
    apply skips_alt2; [apply misses_cls; reflexivity|].
    do 3 (apply skips_alt2; [apply misses_seq1, misses_cls; reflexivity|]). apply skips_lf.
  Qed.
  Lemma skips_run u r : forallb quotable u = true -> forallb (fun c => negb (c =? 39)) u = true ->
    skips (Star (Nt (Rul r_q1) >> Rul r_utf8)) (u ++ 39 :: r) (39 :: r).
  Proof.
    intros U V. induction u as [|c u IH]; cbn [app].
    - apply skips_star0, misses_seq1. eapply (misses_nt str dbl), skips_rul; [reflexivity|]. apply skips_chr.
    - cbn [forallb] in U, V. apply andb_true_iff in U, V. destruct U as [U1 U2], V as [V1 V2].
      eapply skips_star1; [|apply IH; assumption].
      eapply skips_seq; [apply skips_nt, misses_rul; cbn [grammar]; apply misses_chr; lia | apply skips_quotable, U1].
  Qed.
  Lemma does_c1 acc c u r : forallb quotable (c :: u) = true -> forallb (fun c => negb (c =? 39)) (c :: u) = true ->
    does (has_buf acc) (Rul r_c1) (c :: u ++ 39 :: r) (39 :: r) (has_buf (acc ++ c :: u)).
  Proof.
    intros U V. apply bdoes_does. intros be. eexists. apply bdoes_rul0; [reflexivity|]. cbn [grammar].
    eapply bdoes_seq; [apply bdoes_bg|].
    cbn [forallb] in U, V. apply andb_true_iff in U, V. destruct U as [U1 U2], V as [V1 V2].
    eapply bdoes_seq.
    { apply bdoes_skips, skips_plus. eapply skips_seq; [|apply skips_run; eassumption].
      eapply skips_seq; [apply skips_nt, misses_rul; cbn [grammar]; apply misses_chr; lia | apply skips_quotable, U1]. }
    eapply bdoes_seq; [apply bdoes_en|]. apply bdoes_act. intros b st (A & B & C).
    cbn [fst snd]. change (text_of (c :: u ++ 39 :: r, 39 :: r)) with (text_of ((c :: u) ++ 39 :: r, 39 :: r)). rewrite text_app.
    eexists. split; [reflexivity|]. repeat split; cbn; [exact A | exact B | rewrite C; reflexivity].
  Qed.
  Lemma split_run l : exists u v, l = u ++ v /\ forallb (fun c => negb (c =? 39)) u = true /\ heads (Z.eqb 39) v = true.
  Proof.
    induction l as [|c l (u & v & -> & U & V)]; [exists [], []; auto|].
    destruct (c =? 39) eqn:E.
    - exists [], (c :: u ++ v). repeat split. cbn [heads]. lia.
    - exists (c :: u), v. repeat split; [cbn [forallb]; rewrite E; exact U | exact V].
  Qed.
  Lemma escaped_app u v : escaped (u ++ v) = escaped u ++ escaped v.
  Proof. induction u as [|c u IH]; cbn [escaped app]; [reflexivity|]. rewrite IH, app_assoc. reflexivity. Qed.
  Lemma escaped_run u : forallb (fun c => negb (c =? 39)) u = true -> escaped u = u.
  Proof.
    induction u as [|c u IH]; cbn [escaped forallb]; [reflexivity|]. intros H. apply andb_true_iff in H. destruct H as [H1 H2].
    replace (c =? 39) with false by lia. rewrite IH by exact H2. reflexivity.
  Qed.
  Definition str_items : gpe := Rul r_q1 >> Rul r_q1 >> Act (AWrites [39]) // Rul r_c1.
  Lemma does_items r : heads (fun c => negb (c =? 39)) r = true -> forall n l acc, (length l <= n)%nat -> forallb quotable l = true ->
    does (has_buf acc) (Star str_items) (escaped l ++ 39 :: r) (39 :: r) (has_buf (acc ++ l)).
  Proof.
    intros R. induction n as [|n IH]; intros l acc L Q.
    - destruct l; [|cbn in L; lia]. cbn [escaped app]. rewrite app_nil_r. apply does_star0.
      apply fails_alt.
      + eapply (fails_seq2 str dbl) with (I := fun _ _ => False); [apply skips_does, skips_rul; [reflexivity | apply skips_chr]|].
        apply fails_seq1, misses_fails, misses_rul. cbn [grammar]. destruct r as [|c r]; [apply misses_chr_nil|]. apply misses_chr. cbn [heads] in R. lia.
      + pf [39].
    - destruct l as [|c l].
      { apply IH; [cbn; lia | reflexivity]. }
      destruct (c =? 39) eqn:E.
      + apply Z.eqb_eq in E. subst c. cbn [escaped Z.eqb Pos.eqb app].
        cbn [forallb] in Q. apply andb_true_iff in Q. destruct Q as [Q1 Q2].
        eapply does_star1 with (M := has_buf (acc ++ [39])).
        * apply does_alt1. eapply skips_does_seq; [apply skips_rul; [reflexivity | apply skips_chr]|].
          eapply skips_does_seq; [apply skips_rul; [reflexivity | apply skips_chr]|].
          apply does_act. intros t b st (A & B & C). eexists. split; [reflexivity|]. repeat split; cbn; [exact A | exact B | rewrite C; reflexivity].
        * replace (acc ++ 39 :: l) with ((acc ++ [39]) ++ l) by (rewrite <- app_assoc; reflexivity).
          apply IH; [cbn in L; lia | exact Q2].
      + destruct (split_run l) as (u & v & -> & U & V).
        assert (U' : forallb (fun c => negb (c =? 39)) (c :: u) = true) by (cbn [forallb]; rewrite E; exact U).
        change (c :: u ++ v) with ((c :: u) ++ v) in *. rewrite escaped_app, (escaped_run _ U').
        rewrite forallb_app in Q. apply andb_true_iff in Q. destruct Q as [Q1 Q2].
        assert (S1 : exists t, escaped v ++ 39 :: r = 39 :: t).
        { destruct v as [|d v]; [exists r; reflexivity|]. cbn [heads] in V. assert (d = 39) by lia. subst d. eexists. reflexivity. }
        rewrite <- app_assoc. destruct S1 as (t & S1).
        eapply does_star1 with (M := has_buf (acc ++ c :: u)).
        * rewrite S1. apply does_alt2; [|apply does_c1; assumption].
          apply fails_seq1, misses_fails, misses_rul. cbn [grammar app]. apply misses_chr. lia.
        * replace (acc ++ (c :: u) ++ v) with ((acc ++ c :: u) ++ v) by (rewrite <- app_assoc; reflexivity).
          rewrite <- S1. apply IH; [|exact Q2]. rewrite app_length in L. cbn [length] in L. lia.
  Qed.
  Lemma y_str1 l r : forallb quotable l = true -> heads (fun c => negb (c =? 39)) r = true ->
    yields (Rul r_str1) (quoted l ++ r) r (SVal (str l)).
  Proof.
    intros Q R. apply yields_rul0; [reflexivity|]. cbn [grammar]. unfold quoted.
    change ((39 :: escaped l ++ [39]) ++ r) with (39 :: (escaped l ++ [39]) ++ r). rewrite <- app_assoc. cbn [app].
    eapply skips_does_seq; [apply skips_rul; [reflexivity | apply skips_chr]|].
    eapply does_seq with (M := has_buf []).
    { apply does_act. intros t b st <-. eexists. split; [reflexivity|]. repeat split. }
    eapply does_seq with (M := has_buf []).
    { apply bdoes_does. intros be. eexists. apply bdoes_bg. }
    eapply does_seq; [apply (does_items r R (length l)); [lia | exact Q]|]. cbn [app].
    eapply does_seq with (M := has_buf l).
    { apply bdoes_does. intros be. eexists. apply bdoes_en. }
    eapply skips_does_seq; [apply skips_rul; [reflexivity | apply skips_chr]|].
    apply does_act. intros t b st (A & B & C). eexists. split; [reflexivity|]. repeat split; cbn; [lia | exact B | rewrite C; reflexivity].
  Qed.

  (** ** Literals *)
  Hypothesis Nn : forall l, str l <> PN_NIL.
  Definition lit_word (v : Z) (w : list Z) : Prop :=
    (v = PN_NIL /\ w = [110; 105; 108]) \/ (v = PN_TRUE /\ w = [116; 114; 117; 101])
     \/ (v = PN_FALSE /\ w = [102; 97; 108; 115; 101])
     \/ (exists n, 0 <= n < two62 /\ v = PN_NUM n /\ w = sprintf_ld n)
     \/ (exists l, forallb quotable l = true /\ v = str l /\ w = quoted l).
  Definition sf_of (v : Z) : sf := if v =? PN_NIL then SNil else SVal v.
  Lemma y_immed v w r : lit_word v w ->
    (forall c t, rev w = c :: t -> word_char c = true -> stops r) -> no_frac r -> heads (fun c => negb (c =? 39)) r = true ->
    yields (Rul r_immed) (w ++ r) r (sf_of v).
  Proof.
    intros W S F Q. apply yields_rul0; [reflexivity|]. cbn [grammar].
    assert (act1 : forall (I : pst -> pst -> Prop) a v s, (forall b st, I b st -> b = st) ->
              (forall t st, do_act str dbl a t st = XOk (set_yy v st)) -> does I (Act a) s s (out 0 v)).
    { intros I a v0 s HI H. apply does_act. intros t b st L. apply HI in L. subst b. eexists. split; [apply H|]. repeat split; cbn; lia. }
    destruct W as [(-> & ->)|[(-> & ->)|[(-> & ->)|[(n & N & -> & ->)|(l & L & -> & ->)]]]].
    - specialize (S _ _ eq_refl eq_refl). apply does_alt1.
      eapply skips_does_seq; [apply skips_rul; [reflexivity | apply (skips_word str dbl s_nil); [reflexivity | exact S]]|].
      apply act1; [auto | reflexivity].
    - specialize (S _ _ eq_refl eq_refl). apply does_alt2; [pf [116]|]. apply does_alt1.
      eapply skips_does_seq; [apply skips_rul; [reflexivity | apply (skips_word str dbl s_true); [reflexivity | exact S]]|].
      apply act1; [auto | reflexivity].
    - specialize (S _ _ eq_refl eq_refl). do 2 (apply does_alt2; [pf [102]|]). apply does_alt1.
      eapply skips_does_seq; [apply skips_rul; [reflexivity | apply (skips_word str dbl s_false); [reflexivity | exact S]]|].
      apply act1; [auto | reflexivity].
    - assert (Sr : stops r).
      { destruct (rev (sprintf_ld n)) as [|c t] eqn:E.
        - exfalso. destruct (ld_shape n N) as [(-> & E')|(d & ds & E' & _)]; rewrite E' in E; cbn in E; [discriminate|].
          symmetry in E. exact (app_cons_not_nil _ _ _ E).
        - apply (S c t eq_refl). assert (I : In c (rev (sprintf_ld n))) by (rewrite E; left; reflexivity). apply in_rev in I.
          assert (D : digit c = true).
          { destruct (ld_shape n N) as [(-> & E')|(d & ds & E' & H & Ds)]; rewrite E' in I.
            - destruct I as [<-|[]]. reflexivity.
            - destruct I as [<-|I]; [unfold digit, between; lia|]. unfold digits in Ds. rewrite forallb_forall in Ds. exact (Ds _ I). }
          unfold word_char, name_char. rewrite D, !orb_true_r. reflexivity. }
      assert (H1 : forall k x t, In (x :: t) reserved -> k = x :: t -> misses (Str k >> Nt (Rul r_utfw)) (sprintf_ld n ++ r)).
      { intros k x t I ->. apply misses_seq1.
        assert (X : x > 57) by (cbn in I; repeat destruct I as [I|I]; try (injection I as <- _; lia); contradiction).
        destruct (ld_shape n N) as [(-> & ->)|(d & ds & -> & D & Ds)]; cbn [app]; apply misses_str; lia. }
      apply does_alt2; [apply fails_seq1, misses_fails, misses_rul; cbn [grammar]; eapply (H1 _ 110); [|reflexivity]; cbn; tauto|].
      apply does_alt2; [apply fails_seq1, misses_fails, misses_rul; cbn [grammar]; eapply (H1 _ 116); [|reflexivity]; cbn; tauto|].
      apply does_alt2; [apply fails_seq1, misses_fails, misses_rul; cbn [grammar]; eapply (H1 _ 102); [|reflexivity]; cbn; tauto|].
      apply does_alt2.
      { apply fails_seq1, misses_fails, misses_rul. cbn [grammar]. apply misses_seq1.
        destruct (ld_shape n N) as [(-> & ->)|(d & ds & -> & D & Ds)]; cbn [app]; [|apply misses_str; lia].
        intros be. exists 1%nat. cbn [run match_str]. rewrite Z.eqb_refl. destruct r as [|c r]; [reflexivity|].
        replace (c =? 120) with false; [reflexivity|]. destruct (c =? 120) eqn:E; [|reflexivity]. apply Z.eqb_eq in E. subst c. discriminate Sr. }
      apply does_alt1. apply bdoes_does. intros be. destruct (b_dec n r be N Sr F) as (be' & T & B). exists be'.
      eapply bdoes_seq; [exact B|]. apply bdoes_act. intros b st (A1 & A2 & A3). rewrite T. cbn [do_act]. rewrite A3.
      rewrite lit_dec_ld by (unfold two62, two63 in *; lia). eexists. split; [reflexivity|].
      repeat split; cbn; [lia | exact A2|]. unfold sf_of. replace (PN_NUM n =? PN_NIL) with false; [reflexivity|].
      symmetry. apply Z.eqb_neq. intros E. pose proof (PN_NUM_is_int n) as P. rewrite E in P. discriminate P.
    - unfold sf_of. replace (str l =? PN_NIL) with false by (specialize (Nn l); lia).
      do 5 (apply does_alt2; [pf [39]|]). apply does_alt1. apply y_str1; assumption.
  Qed.
  Lemma y_value_lit v w g r : lit_word v w -> spaces g ->
    (forall c t, rev w = c :: t -> word_char c = true -> stops (g ++ r)) -> no_frac r -> heads (fun c => negb (c =? 39)) r = true ->
    heads no_gap r = true ->
    yields (Rul r_value) (w ++ g ++ r) r (SSrc (ValOf v)).
  Proof.
    intros W G S F Q K. apply yields_rul. cbn [grammar nvars]. apply does_alt1.
    assert (F' : no_frac (g ++ r) /\ heads (fun c => negb (c =? 39)) (g ++ r) = true).
    { destruct g as [|c g]; [split; assumption|]. unfold spaces in G. cbn [forallb] in G. apply andb_true_iff in G. destruct G as [G _]. unfold blank in G. cbn [app heads no_frac].
      split; [|lia]. destruct c as [|c|c]; try exact Logic.I. do 6 (destruct c as [c|c|]; try exact Logic.I). discriminate G. }
    eapply does_seq; [eapply does_var' with (K' := fun v0 => v0 (-2) = sf_of v); [apply y_immed; try eassumption; apply F' | lia | lia | intros v1 v2 _ E _; exact E]|].
    eapply skips_does_seq; [apply skips_sp; assumption|].
    apply does_ret'. intros t st E. cbn [do_act]. rewrite E. reflexivity.
  Qed.
End Lit.
