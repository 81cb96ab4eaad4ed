(** The lexical rules of the grammar against TextSpec: white space, words, numbers,
    quoted strings. *)
From Verif Require Import Base WordModel NumModel NumProofs CompileModel PegModel PegTerm SyntaxModel SyntaxTerm PegProofs TextSpec.
From Coq Require Import ZifyBool Arith.PeanoNat.

(** ** Not matching, without touching begin and end *)
Lemma misses_chr x c s : c <> x -> misses (Chr x) (c :: s).
Proof. intros H be. exists 1%nat. cbn [run]. replace (c =? x) with false by lia. reflexivity. Qed.
Lemma misses_chr_nil x : misses (Chr x) [].
Proof. intros be. exists 1%nat. reflexivity. Qed.
Lemma misses_cls f c s : f c = false -> misses (Cls f) (c :: s).
Proof. intros H be. exists 1%nat. cbn [run]. rewrite H. reflexivity. Qed.
Lemma misses_cls_nil f : misses (Cls f) [].
Proof. intros be. exists 1%nat. reflexivity. Qed.
Lemma misses_str x l c s : c <> x -> misses (Str (x :: l)) (c :: s).
Proof. intros H be. exists 1%nat. cbn [run match_str]. replace (c =? x) with false by lia. reflexivity. Qed.
Lemma misses_str_nil x l : misses (Str (x :: l)) [].
Proof. intros be. exists 1%nat. reflexivity. Qed.
Lemma misses_alt a b s : misses a s -> misses b s -> misses (Alt a b) s.
Proof.
  intros H1 H2 be. destruct (H1 be) as (n & E1). destruct (H2 be) as (m & E2).
  exists (S (Nat.max n m)). cbn [run]. rewrite (run_le _ _ n _ _ _ _ _ (Nat.le_max_l n m) E1).
  rewrite (run_le _ _ m _ _ _ _ _ (Nat.le_max_r n m) E2). reflexivity.
Qed.
Lemma misses_seq1 a b s : misses a s -> misses (Seq a b) s.
Proof. intros H be. destruct (H be) as (n & E). exists (S n). cbn [run]. rewrite E. reflexivity. Qed.

(** rules without < > *)
Definition plain_rule (r : rule) : bool :=
  match r with
  | r_utff | r_utfw | r_utf8 | r_comma | r_block_start | r_block_end | r_list_start | r_list_end
  | r_lick_start | r_lick_end | r_group_start | r_group_end | r_quiz | r_assign | r_defassign
  | r_pplus | r_mminus | r_minus | r_plus | r_wavy | r_times | r_div | r_rem | r_pow | r_bitl | r_bitr
  | r_amp | r_caret | r_pipe | r_lt | r_lte | r_gt | r_gte | r_neq | r_eq | r_cmp | r_and | r_or | r_not
  | r_keyword | r_nil | r_true | r_false | r_hexl | r_q1 | r_q2 | r_esc | r_sp | r_nl | r_sep | r_comment
  | r_space | r_eol | r_eof => true
  | _ => false
  end.
Lemma plain_rule_ok : forall r, plain_rule r = true -> pure plain_rule (grammar r) = true.
Proof. destruct r; vm_compute; intros; congruence. Qed.
Lemma plain_misses e s : pure plain_rule e = true -> fails e s -> misses e s.
Proof. apply fails_misses, plain_rule_ok. Qed.

(** matching does not depend on begin and end *)
Lemma be_indep : forall n e s be be2, match grun n e s be, grun n e s be2 with
  | Some (Match r _ _), Some (Match r2 _ _) => r2 = r
  | Some (Fail _), Some (Fail _) | None, None => True
  | _, _ => False end.
Proof.
  induction n as [|n IH]; intros e s be be2; [exact Logic.I|].
  destruct e; cbn [run].
  - destruct s as [|x s]; [exact Logic.I|]. destruct (x =? c); [reflexivity | exact Logic.I].
  - destruct (match_str l s); [reflexivity | exact Logic.I].
  - destruct s as [|x s]; [exact Logic.I|]. destruct (f x); [reflexivity | exact Logic.I].
  - destruct s as [|x s]; [exact Logic.I | reflexivity].
  - pose proof (IH e1 s be be2) as H. destruct (grun n e1 s be) as [[s1 b1 t1|b1]|], (grun n e1 s be2) as [[s2 b2 t2|b2]|]; try contradiction; try exact Logic.I.
    subst s2. pose proof (IH e2 s1 b1 b2) as H.
    destruct (grun n e2 s1 b1) as [[s3 b3 t3|b3]|], (grun n e2 s1 b2) as [[s4 b4 t4|b4]|]; try contradiction; try exact Logic.I; exact H.
  - pose proof (IH e1 s be be2) as H. destruct (grun n e1 s be) as [[s1 b1 t1|b1]|], (grun n e1 s be2) as [[s2 b2 t2|b2]|]; try contradiction; try exact Logic.I; try exact H.
    apply IH.
  - pose proof (IH e s be be2) as H. destruct (grun n e s be) as [[s1 b1 t1|b1]|], (grun n e s be2) as [[s2 b2 t2|b2]|]; try contradiction; try exact Logic.I; try reflexivity.
    subst s2. pose proof (IH (Star e) s1 b1 b2) as H.
    destruct (grun n (Star e) s1 b1) as [[s3 b3 t3|b3]|], (grun n (Star e) s1 b2) as [[s4 b4 t4|b4]|]; try contradiction; try exact Logic.I; exact H.
  - apply IH.
  - pose proof (IH e s be be2) as H. destruct (grun n e s be) as [[s1 b1 t1|b1]|], (grun n e s be2) as [[s2 b2 t2|b2]|]; try contradiction; try exact Logic.I; try exact H; reflexivity.
  - pose proof (IH e s be be2) as H. destruct (grun n e s be) as [[s1 b1 t1|b1]|], (grun n e s be2) as [[s2 b2 t2|b2]|]; try contradiction; try exact Logic.I; try exact H; reflexivity.
  - pose proof (IH (grammar r) s be be2) as H. destruct (grun n (grammar r) s be) as [[s1 b1 t1|b1]|], (grun n (grammar r) s be2) as [[s2 b2 t2|b2]|]; try contradiction; try exact Logic.I; exact H.
  - pose proof (IH (Rul r) s be be2) as H. destruct (grun n (Rul r) s be) as [[s1 b1 t1|b1]|], (grun n (Rul r) s be2) as [[s2 b2 t2|b2]|]; try contradiction; try exact Logic.I; exact H.
  - reflexivity.
  - reflexivity.
  - reflexivity.
Qed.
Lemma fails_one n e s be be' : grun n e s be = Some (Fail be') -> fails e s.
Proof.
  intros E be2. pose proof (be_indep n e s be be2) as H. rewrite E in H. exists n.
  destruct (grun n e s be2) as [[r b t|b]|]; try contradiction. eauto.
Qed.
(** where a repetition stops, the repeated phrase does not match *)
Lemma star_stops n : forall a s be r be' t, grun n (Star a) s be = Some (Match r be' t) -> fails a r.
Proof.
  induction n as [|n IH]; intros a s be r be' t H; [discriminate H|]. cbn [run] in H.
  destruct (grun n a s be) as [[s1 b1 t1|b1]|] eqn:E1; try discriminate.
  - destruct (grun n (Star a) s1 b1) as [[s2 b2 t2|b2]|] eqn:E2; try discriminate. injection H as <- <- <-. exact (IH _ _ _ _ _ _ E2).
  - injection H as <- <- <-. exact (fails_one _ _ _ _ _ E1).
Qed.
Lemma fails_alt_inv1 a b s : fails (Alt a b) s -> fails a s.
Proof.
  intros H. destruct (H (s, s)) as (n & be' & E). destruct n as [|n]; [discriminate E|]. cbn [run] in E.
  destruct (grun n a s (s, s)) as [[s1 b1 t1|b1]|] eqn:E1; try discriminate. exact (fails_one _ _ _ _ _ E1).
Qed.

(** ** White space *)
Definition heads (f : Z -> bool) (r : list Z) : bool := match r with [] => true | c :: _ => f c end.
Definition no_gap (c : Z) : bool := negb (blank c) && negb (c =? 35).
Definition no_nl (c : Z) : bool := no_gap c && negb (c =? 10) && negb (c =? 13).
Definition no_sep (c : Z) : bool := no_nl c && negb (c =? 44).

Section Lex.
  Context (str dbl : list Z -> Z).
  Notation skips := (skips str dbl).
  Notation does := (does str dbl).
  Notation yields := (yields str dbl).

  Lemma skips_space c s : blank c = true -> skips (Rul r_space) (c :: s) s.
  Proof.
    intros H. apply skips_rul; [reflexivity|]. cbn [grammar].
    unfold blank in H.
    destruct (c =? 32) eqn:E1; [apply Z.eqb_eq in E1; subst; apply skips_alt1, skips_chr|].
    apply skips_alt2; [apply misses_chr; lia|].
    destruct (c =? 12) eqn:E2; [apply Z.eqb_eq in E2; subst; apply skips_alt1, skips_chr|].
    apply skips_alt2; [apply misses_chr; lia|].
    destruct (c =? 11) eqn:E3; [apply Z.eqb_eq in E3; subst; apply skips_alt1, skips_chr|].
    apply skips_alt2; [apply misses_chr; lia|].
    destruct (c =? 9) eqn:E4; [apply Z.eqb_eq in E4; subst; apply skips_chr|]. lia.
  Qed.
  Lemma misses_space r : heads (fun c => negb (blank c)) r = true -> misses (Rul r_space) r.
  Proof.
    intros H. apply misses_rul. cbn [grammar]. destruct r as [|c r].
    - repeat apply misses_alt; apply misses_chr_nil.
    - cbn [heads] in H. unfold blank in H. repeat apply misses_alt; apply misses_chr; lia.
  Qed.
  Lemma misses_comment r : heads (fun c => negb (c =? 35)) r = true -> misses (Rul r_comment) r.
  Proof.
    intros H. apply misses_rul. cbn [grammar]. apply misses_seq1. destruct r as [|c r]; [apply misses_chr_nil|].
    cbn [heads] in H. apply misses_chr. lia.
  Qed.
  Lemma misses_eol r : heads (fun c => negb (c =? 10) && negb (c =? 13)) r = true -> misses (Rul r_eol) r.
  Proof.
    intros H. apply misses_rul. cbn [grammar]. apply misses_seq1. destruct r as [|c r].
    - apply misses_alt; [apply misses_str_nil|]. apply misses_alt; apply misses_chr_nil.
    - cbn [heads] in H. apply misses_alt; [apply misses_str; lia|]. apply misses_alt; apply misses_chr; lia.
  Qed.
  Lemma misses_comma r : heads (fun c => negb (c =? 44)) r = true -> misses (Rul r_comma) r.
  Proof.
    intros H. apply misses_rul. cbn [grammar]. destruct r as [|c r]; [apply misses_chr_nil|].
    cbn [heads] in H. apply misses_chr. lia.
  Qed.
  Lemma heads_imp (f g : Z -> bool) r : heads f r = true -> (forall c, f c = true -> g c = true) -> heads g r = true.
  Proof. destruct r; cbn [heads]; auto. Qed.
  Lemma misses_nt a s r : skips a s r -> misses (Nt a) s.
  Proof. intros H be. destruct (H be) as (n & t & E & _). exists (S n). cbn [run]. rewrite E. reflexivity. Qed.
  Lemma skips_line s : skips (Act ALine) s s.
  Proof. intros be. exists 1%nat. eexists. split; [reflexivity|]. intros st. reflexivity. Qed.
  Lemma skips_lf s : skips (Rul r_eol) (10 :: s) s.
  Proof.
    apply skips_rul; [reflexivity|]. cbn [grammar]. eapply skips_seq; [|apply skips_line].
    apply skips_alt2; [apply misses_str; lia|]. apply skips_alt1, skips_chr.
  Qed.
  Lemma skips_crlf s : skips (Rul r_eol) (13 :: 10 :: s) s.
  Proof.
    apply skips_rul; [reflexivity|]. cbn [grammar]. eapply skips_seq; [|apply skips_line].
    apply skips_alt1. exact (skips_str str dbl [13; 10] s).
  Qed.
  Lemma skips_utf8 c s : printing c = true -> skips (Rul r_utf8) (c :: s) s.
  Proof. intros H. apply skips_rul; [reflexivity|]. cbn [grammar]. apply skips_alt1, skips_cls. exact H. Qed.
  Lemma skips_comment t s : forallb printing t = true -> skips (Rul r_comment) (35 :: t ++ 10 :: s) (10 :: s).
  Proof.
    intros H. apply skips_rul; [reflexivity|]. cbn [grammar]. eapply skips_seq; [apply skips_chr|].
    induction t as [|c t IH]; cbn [app].
    - apply skips_star0, misses_seq1. eapply misses_nt, skips_lf.
    - cbn [forallb] in H. apply andb_true_iff in H. destruct H as [H1 H2].
      eapply skips_star1; [|apply IH, H2].
      eapply skips_seq; [|apply skips_utf8, H1]. apply skips_nt, misses_eol. cbn [heads].
      unfold printing, between in H1. lia.
  Qed.

  Lemma skips_sp g r : spaces g -> heads no_gap r = true -> skips (Rul r_sp) (g ++ r) r.
  Proof.
    intros G H. apply skips_rul; [reflexivity|]. cbn [grammar]. unfold spaces in G.
    induction g as [|c g IH]; cbn [app].
    - apply skips_star0, misses_alt; [apply misses_space | apply misses_comment];
        (eapply heads_imp; [exact H|]); intros c; unfold no_gap; lia.
    - cbn [forallb] in G. apply andb_true_iff in G. destruct G as [G1 G2].
      eapply skips_star1; [|apply IH, G2]. apply skips_alt1, skips_space, G1.
  Qed.
  Lemma skips_nl g r : lines g -> heads no_nl r = true -> skips (Rul r_nl) (g ++ r) r.
  Proof.
    intros G H. apply skips_rul; [reflexivity|]. cbn [grammar].
    induction G as [|c g B G IH|g G IH|g G IH|t g B G IH]; cbn [app].
    - apply skips_star0, misses_alt; [apply misses_space | apply misses_alt; [apply misses_comment | apply misses_eol]];
        (eapply heads_imp; [exact H|]); intros c; unfold no_nl, no_gap; lia.
    - eapply skips_star1; [|apply IH]. apply skips_alt1, skips_space, B.
    - eapply skips_star1; [|apply IH]. apply skips_alt2; [apply misses_space; reflexivity|].
      apply skips_alt2; [apply misses_comment; reflexivity|]. apply skips_lf.
    - eapply skips_star1; [|apply IH]. apply skips_alt2; [apply misses_space; reflexivity|].
      apply skips_alt2; [apply misses_comment; reflexivity|]. apply skips_crlf.
    - rewrite <- app_assoc. cbn [app]. eapply skips_star1.
      + apply skips_alt2; [apply misses_space; reflexivity|]. apply skips_alt1, skips_comment, B.
      + eapply skips_star1; [|apply IH]. apply skips_alt2; [apply misses_space; reflexivity|].
        apply skips_alt2; [apply misses_comment; reflexivity|]. apply skips_lf.
  Qed.
  Lemma skips_seps g r : seps g -> heads no_sep r = true ->
    skips (Star (Alt (Rul r_space) (Alt (Rul r_comment) (Alt (Rul r_eol) (Rul r_comma))))) (g ++ r) r.
  Proof.
    intros G H.
    induction G as [|c g B G IH|g G IH|g G IH|g G IH|t g B G IH]; cbn [app].
    - apply skips_star0, misses_alt; [apply misses_space | apply misses_alt; [apply misses_comment | apply misses_alt; [apply misses_eol | apply misses_comma]]];
        (eapply heads_imp; [exact H|]); intros c; unfold no_sep, no_nl, no_gap; lia.
    - eapply skips_star1; [|apply IH]. apply skips_alt1, skips_space, B.
    - eapply skips_star1; [|apply IH]. apply skips_alt2; [apply misses_space; reflexivity|].
      apply skips_alt2; [apply misses_comment; reflexivity|]. apply skips_alt1, skips_lf.
    - eapply skips_star1; [|apply IH]. apply skips_alt2; [apply misses_space; reflexivity|].
      apply skips_alt2; [apply misses_comment; reflexivity|]. apply skips_alt1, skips_crlf.
    - eapply skips_star1; [|apply IH]. apply skips_alt2; [apply misses_space; reflexivity|].
      apply skips_alt2; [apply misses_comment; reflexivity|]. apply skips_alt2; [apply misses_eol; reflexivity|].
      apply skips_rul; [reflexivity|]. apply skips_chr.
    - rewrite <- app_assoc. cbn [app]. eapply skips_star1.
      + apply skips_alt2; [apply misses_space; reflexivity|]. apply skips_alt1, skips_comment, B.
      + eapply skips_star1; [|apply IH]. apply skips_alt2; [apply misses_space; reflexivity|].
        apply skips_alt2; [apply misses_comment; reflexivity|]. apply skips_alt1, skips_lf.
  Qed.
  Lemma skips_sep s r : separator s -> heads no_sep r = true -> skips (Rul r_sep) (s ++ r) r.
  Proof.
    intros (g & G & E) H. apply skips_rul; [reflexivity|]. cbn [grammar].
    destruct E as [->|[->| ->]]; cbn [app]; (eapply skips_seq; [|apply skips_seps; eassumption]).
    - apply skips_alt2; [apply misses_eol; reflexivity|]. apply skips_rul; [reflexivity|]. apply skips_chr.
    - apply skips_alt1, skips_lf.
    - apply skips_alt1, skips_crlf.
  Qed.

  (** ** Words *)
  Lemma utff_eq c : utff1 c = letter c.
  Proof. unfold utff1, letter, is_alpha, rng, between. reflexivity. Qed.
  Lemma utfw_eq c : utfw1 c = name_char c.
  Proof. unfold utfw1, name_char, is_digit, rng, digit, between. rewrite utff_eq. reflexivity. Qed.
  Lemma skips_utff c s : letter c = true -> skips (Rul r_utff) (c :: s) s.
  Proof. intros H. apply skips_rul; [reflexivity|]. cbn [grammar]. apply skips_alt1, skips_cls. rewrite utff_eq. exact H. Qed.
  Lemma skips_utfw c s : name_char c = true -> skips (Rul r_utfw) (c :: s) s.
  Proof. intros H. apply skips_rul; [reflexivity|]. cbn [grammar]. apply skips_alt1, skips_cls. rewrite utfw_eq. exact H. Qed.
  Lemma misses_high r : heads (fun c => c <? 128) r = true -> misses utf_high r.
  Proof.
    intros H. destruct r as [|c r].
    - repeat apply misses_alt; apply misses_seq1; first [apply misses_str_nil | apply misses_cls_nil].
    - cbn [heads] in H. repeat apply misses_alt; apply misses_seq1;
        first [apply misses_str; lia | apply misses_cls; unfold rng; lia].
  Qed.
  Lemma misses_utfw r : heads (fun c => negb (name_char c) && (c <? 128)) r = true -> misses (Rul r_utfw) r.
  Proof.
    intros H. apply misses_rul. cbn [grammar]. apply misses_alt.
    - destruct r as [|c r]; [apply misses_cls_nil|]. apply misses_cls. rewrite utfw_eq. cbn [heads] in H. destruct (name_char c); [discriminate H | reflexivity].
    - apply misses_high. eapply heads_imp; [exact H|]. intros c. lia.
  Qed.
  Lemma misses_utff r : heads (fun c => negb (letter c) && (c <? 128)) r = true -> misses (Rul r_utff) r.
  Proof.
    intros H. apply misses_rul. cbn [grammar]. apply misses_alt.
    - destruct r as [|c r]; [apply misses_cls_nil|]. apply misses_cls. rewrite utff_eq. cbn [heads] in H. destruct (letter c); [discriminate H | reflexivity].
    - apply misses_high. eapply heads_imp; [exact H|]. intros c. lia.
  Qed.
  Lemma skips_utfws w r : forallb name_char w = true -> heads (fun c => negb (name_char c) && (c <? 128)) r = true ->
    skips (Star (Rul r_utfw)) (w ++ r) r.
  Proof.
    intros W H. induction w as [|c w IH]; cbn [app].
    - apply skips_star0, misses_utfw, H.
    - cbn [forallb] in W. apply andb_true_iff in W. destruct W as [W1 W2].
      eapply skips_star1; [apply skips_utfw, W1 | apply IH, W2].
  Qed.
  Lemma stop_word r : heads (fun c => negb (word_char c)) r = true -> heads (fun c => negb (name_char c) && (c <? 128)) r = true.
  Proof. intros H. eapply heads_imp; [exact H|]. intros c. unfold word_char. destruct (name_char c); cbn; lia. Qed.
  Lemma skips_ident w r : path_ident w = true -> heads (fun c => negb (word_char c)) r = true ->
    skips (Seq (Rul r_utff) (Star (Rul r_utfw))) (w ++ r) r.
  Proof.
    intros W H. destruct w as [|c w]; [discriminate W|]. cbn [path_ident] in W. apply andb_true_iff in W. destruct W as [W1 W2].
    cbn [app]. eapply skips_seq; [apply skips_utff, W1|]. apply skips_utfws; [exact W2 | apply stop_word, H].
  Qed.
  Lemma ident_path w : ident w = true -> path_ident w = true.
  Proof. unfold ident, path_ident. destruct w; [intros H; exact H|]. intros H. apply andb_true_iff in H. destruct H as [H _]. apply andb_true_iff in H. apply H. Qed.

  Lemma skips_ident_q w r : ident_q w -> heads (fun c => negb (word_char c)) r = true ->
    skips (Seq (Rul r_utff) (Seq (Star (Rul r_utfw)) (Opt (Chr 63)))) (w ++ r) r.
  Proof.
    intros W H.
    assert (Q : exists u q, w = u ++ q /\ ident u = true /\ (q = [] \/ q = [63])).
    { destruct W as [W|(u & W & ->)]; [exists w, [] | exists u, [63]]; rewrite ?app_nil_r; auto. }
    destruct Q as (u & q & -> & U & Q). apply ident_path in U.
    destruct u as [|c u]; [discriminate U|]. cbn [path_ident] in U. apply andb_true_iff in U. destruct U as [U1 U2].
    cbn [app]. rewrite <- app_assoc. eapply skips_seq; [apply skips_utff, U1|].
    destruct Q as [-> | ->]; cbn [app].
    - eapply skips_seq; [apply skips_utfws; [exact U2 | apply stop_word, H]|].
      apply skips_opt0. destruct r as [|d r]; [apply misses_chr_nil|]. apply misses_chr. cbn [heads] in H. unfold word_char in H. lia.
    - eapply skips_seq; [apply skips_utfws; [exact U2 | reflexivity]|]. apply skips_opt1, skips_chr.
  Qed.

  (** the first alternative of msg never matches: the star takes what the plus needs *)
  Definition msg_dead : gpe :=
    Bg >> Rul r_utff >> Star (Rul r_utfw // Cls (fun c => (c =? 46) || (c =? 58)))
       >> Plus (Rul r_utfw) >> Opt (Chr 63) >> En >> Act AStrn.
  Lemma msg_alternative_dead s : fails msg_dead s.
  Proof.
    assert (D : forall s, fails (Star (Rul r_utfw // Cls (fun c => (c =? 46) || (c =? 58))) >> Plus (Rul r_utfw) >> Opt (Chr 63) >> En >> Act AStrn) s).
    { clear s. intros s be.
      destruct (halts_all grammar nvars maybe_empty maybe_empty_ok rule_rank 19 rule_rank_ok (S (length s)) 19
                  (Star (Rul r_utfw // Cls (fun c => (c =? 46) || (c =? 58)))) s (Nat.lt_succ_diag_r _) eq_refl be) as (n & o & E).
      destruct o as [r be1 t|be1].
      - pose proof (star_stops _ _ _ _ _ _ _ E) as F. apply fails_alt_inv1 in F.
        destruct (fails_seq1 _ (Opt (Chr 63) >> En >> Act AStrn) _ (fails_plus _ _ F) be1) as (m & be2 & E2).
        exists (S (Nat.max n m)), be2. cbn [run]. rewrite (run_le _ _ n _ _ _ _ _ (Nat.le_max_l n m) E).
        rewrite (run_le _ _ m _ _ _ _ _ (Nat.le_max_r n m) E2). reflexivity.
      - exists (S n), be1. cbn [run]. rewrite E. reflexivity. }
    intros be.
    destruct (rule_halts r_utff s (s, snd be)) as (n & o & E).
    destruct o as [r be1 t|be1].
    - destruct (D r be1) as (m & be2 & E2). exists (S (S (S (Nat.max n m)))), be2. unfold msg_dead.
      remember (S (Nat.max n m)) as q. cbn [run].
      rewrite (run_le _ _ n q _ _ _ _ ltac:(lia) E). rewrite (run_le _ _ m q _ _ _ _ ltac:(lia) E2). reflexivity.
    - exists (S (S (S n))), be1. unfold msg_dead. remember (S n) as q. cbn [run].
      rewrite (run_le _ _ n q _ _ _ _ ltac:(lia) E). reflexivity.
  Qed.
  Lemma text_app w r : text_of (w ++ r, r) = w.
  Proof.
    unfold text_of. cbn [fst snd]. rewrite app_length. replace (length w + length r - length r)%nat with (length w) by lia.
    rewrite firstn_app, Nat.sub_diag, firstn_O, app_nil_r. apply firstn_all.
  Qed.

  (** ** With begin and end *)
  Definition bdoes (be : list Z * list Z) (I : pst -> pst -> Prop) (e : gpe) (s r : list Z) (J : pst -> pst -> Prop) (be' : list Z * list Z) : Prop :=
    exists n t, grun n e s be = Some (Match r be' t) /\ forall b st, I b st -> exists st', SyntaxModel.exec str dbl t st = XOk st' /\ J b st'.
  Lemma bdoes_does (I J : pst -> pst -> Prop) e s r : (forall be, exists be', bdoes be I e s r J be') -> does I e s r J.
  Proof. intros H be. destruct (H be) as (be' & n & t & E & X). eauto 6. Qed.
  Lemma does_bdoes (I J : pst -> pst -> Prop) e s r be : does I e s r J -> exists be', bdoes be I e s r J be'.
  Proof. intros H. destruct (H be) as (n & be' & t & E & X). exists be', n, t. auto. Qed.
  Lemma bdoes_skips I e s r be : skips e s r -> bdoes be I e s r I be.
  Proof. intros H. destruct (H be) as (n & t & E & X). exists n, t. split; [exact E|]. intros b st L. exists st. auto. Qed.
  Lemma bdoes_seq be be1 be2 (I M J : pst -> pst -> Prop) a b s s1 s2 :
    bdoes be I a s s1 M be1 -> bdoes be1 M b s1 s2 J be2 -> bdoes be I (Seq a b) s s2 J be2.
  Proof.
    intros (n & t1 & E1 & X1) (m & t2 & E2 & X2). exists (S (Nat.max n m)), (t1 ++ t2). split.
    - cbn [run]. rewrite (run_le _ _ n _ _ _ _ _ (Nat.le_max_l n m) E1).
      rewrite (run_le _ _ m _ _ _ _ _ (Nat.le_max_r n m) E2). reflexivity.
    - intros g st L. destruct (X1 g st L) as (st1 & Y1 & Z1). destruct (X2 g st1 Z1) as (st2 & Y2 & Z2).
      exists st2. split; [rewrite (exec_app_ok _ _ _ _ _ _ Y1); exact Y2 | exact Z2].
  Qed.
  Lemma bdoes_bg be (I : pst -> pst -> Prop) s : bdoes be I Bg s s I (s, snd be).
  Proof. exists 1%nat, []. split; [reflexivity|]. intros b st L. exists st. auto. Qed.
  Lemma bdoes_en be (I : pst -> pst -> Prop) s : bdoes be I En s s I (fst be, s).
  Proof. exists 1%nat, []. split; [reflexivity|]. intros b st L. exists st. auto. Qed.
  Lemma bdoes_act be (I J : pst -> pst -> Prop) a s :
    (forall b st, I b st -> exists st', do_act str dbl a (text_of be) st = XOk st' /\ J b st') -> bdoes be I (Act a) s s J be.
  Proof.
    intros H. exists 1%nat, [TAct a (text_of be)]. split; [reflexivity|].
    intros b st L. destruct (H b st L) as (st' & V & U). exists st'. split; [|exact U].
    cbn [SyntaxModel.exec do_thunk]. rewrite V. reflexivity.
  Qed.
  Lemma bdoes_rul0 be be' I r s s' P : nvars r = 0 -> bdoes be I (grammar r) s s' P be' -> bdoes be I (Rul r) s s' P be'.
  Proof.
    intros N (n & t & E & X). exists (S n), t. split; [|exact X].
    cbn [run]. rewrite E. unfold framed. rewrite N. reflexivity.
  Qed.
  Lemma bdoes_alt1 be be' I a b s r P : bdoes be I a s r P be' -> bdoes be I (Alt a b) s r P be'.
  Proof. intros (n & t & E & X). exists (S n), t. split; [cbn [run]; rewrite E; reflexivity | exact X]. Qed.
  Lemma bdoes_alt2 be be' I a b s r P : misses a s -> bdoes be I b s r P be' -> bdoes be I (Alt a b) s r P be'.
  Proof.
    intros H (m & t & E2 & X). destruct (H be) as (n & E1). exists (S (Nat.max n m)), t. split; [|exact X].
    cbn [run]. rewrite (run_le _ _ n _ _ _ _ _ (Nat.le_max_l n m) E1).
    rewrite (run_le _ _ m _ _ _ _ _ (Nat.le_max_r n m) E2). reflexivity.
  Qed.

  (** the state changes in $$ only *)
  Definition same (b st : pst) : Prop := top st = top b /\ (forall i, vals st i = vals b i).
  Definition is (b st : pst) : Prop := b = st.
  Notation gives t := (out 0 t).
  Lemma act_strn be w r s : be = (w ++ r, r) -> bdoes be is (Act AStrn) s s (gives (SVal (str w))) be.
  Proof.
    intros ->. apply bdoes_act. intros b st <-. rewrite text_app. eexists. split; [reflexivity|]. repeat split; cbn; lia.
  Qed.

  Lemma ident_q_parts w : ident_q w -> exists c u q, w = c :: u ++ q /\ letter c = true /\ forallb name_char u = true
    /\ (q = [] \/ q = [63]) /\ ident (c :: u) = true.
  Proof.
    clear str dbl. intros [W|(u & W & ->)].
    - pose proof (ident_path _ W) as V. destruct w as [|c u]; [discriminate V|]. cbn [path_ident] in V. apply andb_true_iff in V.
      exists c, u, []. rewrite app_nil_r. tauto.
    - pose proof (ident_path _ W) as V. destruct u as [|c u]; [discriminate V|]. cbn [path_ident] in V. apply andb_true_iff in V.
      exists c, u, [63]. tauto.
  Qed.
  Definition stops (r : list Z) : Prop := heads (fun c => negb (word_char c)) r = true.
  Lemma y_msg w r : ident_q w -> stops r -> yields (Rul r_msg) (w ++ r) r (SVal (str w)).
  Proof.
    intros W H. apply yields_rul0; [reflexivity|]. cbn [grammar].
    apply does_alt2; [exact (msg_alternative_dead _)|].
    destruct (ident_q_parts w W) as (c & u & q & -> & U1 & U2 & Q & _).
    apply bdoes_does. intros be. eexists. eapply bdoes_seq; [apply bdoes_bg|].
    cbn [app]. rewrite <- app_assoc. eapply bdoes_seq; [apply bdoes_skips, skips_utff, U1|].
    assert (T : heads (fun c => negb (name_char c) && (c <? 128)) (q ++ r) = true).
    { destruct Q as [-> | ->]; [apply stop_word, H | reflexivity]. }
    eapply bdoes_seq; [apply bdoes_skips, skips_utfws; [exact U2 | exact T]|].
    eapply bdoes_seq.
    { apply bdoes_skips. destruct Q as [-> | ->]; cbn [app].
      - apply skips_opt0. destruct r as [|d r]; [apply misses_chr_nil|]. apply misses_chr. unfold stops in H. cbn [heads] in H. unfold word_char in H. lia.
      - apply skips_opt1, skips_chr. }
    eapply bdoes_seq; [apply bdoes_en|]. apply (act_strn _ (c :: u ++ q) r). cbn [fst app]. rewrite <- app_assoc. reflexivity.
  Qed.
  Lemma y_path w g r : path_ident w = true -> spaces g -> stops (g ++ r) -> heads no_gap r = true ->
    yields (Rul r_path) (47 :: w ++ g ++ r) r (SVal (str w)).
  Proof.
    intros W G H K. apply yields_rul0; [reflexivity|]. cbn [grammar].
    destruct w as [|c u]; [discriminate W|]. cbn [path_ident] in W. apply andb_true_iff in W. destruct W as [U1 U2].
    apply bdoes_does. intros be. eexists. eapply bdoes_seq; [apply bdoes_skips, skips_chr|]. eapply bdoes_seq; [apply bdoes_bg|].
    cbn [app]. eapply bdoes_seq; [apply bdoes_skips, skips_utff, U1|].
    eapply bdoes_seq; [apply bdoes_skips, skips_utfws; [exact U2 | apply stop_word, H]|].
    eapply bdoes_seq; [apply bdoes_en|].
    eapply bdoes_seq; [apply bdoes_skips, skips_sp; [exact G | exact K]|].
    apply (act_strn _ (c :: u) (g ++ r)). reflexivity.
  Qed.

  (** ** Reserved words *)
  Lemma match_prefix k : forall w r s, match_str k (w ++ r) = Some s -> forallb name_char k = true ->
    heads (fun c => negb (name_char c) && (c <? 128)) r = true -> exists w', w = k ++ w' /\ s = w' ++ r.
  Proof.
    induction k as [|c k IH]; intros w r s H K R; cbn [match_str] in H.
    - injection H as <-. exists w. auto.
    - cbn [forallb] in K. apply andb_true_iff in K. destruct K as [K1 K2].
      destruct w as [|x w]; cbn [app] in H.
      + destruct r as [|x r]; [discriminate H|]. destruct (x =? c) eqn:E; [|discriminate H]. apply Z.eqb_eq in E. subst x.
        cbn [heads] in R. rewrite K1 in R. discriminate R.
      + destruct (x =? c) eqn:E; [|discriminate H]. apply Z.eqb_eq in E. subst x.
        destruct (IH _ _ _ H K2 R) as (w' & -> & ->). exists w'. auto.
  Qed.
  Lemma list_eqb_refl l : list_eqb l l = true.
  Proof. induction l as [|c l IH]; cbn [list_eqb]; [reflexivity|]. rewrite Z.eqb_refl. exact IH. Qed.
  Lemma prefix_app k l : prefix k (k ++ l) = true.
  Proof. induction k as [|c k IH]; cbn [prefix app]; [reflexivity|]. rewrite Z.eqb_refl. exact IH. Qed.
  (** a name does not match a reserved word *)
  Lemma misses_word k w q r : In k reserved -> ident w = true -> (q = [] \/ q = [63]) -> stops r ->
    misses (Str k >> Nt (Rul r_utfw)) (w ++ q ++ r).
  Proof.
    intros K W Q R be.
    assert (R' : heads (fun c => negb (name_char c) && (c <? 128)) (q ++ r) = true).
    { destruct Q as [-> | ->]; [apply stop_word, R | reflexivity]. }
    assert (Kn : forallb name_char k = true) by (cbn in K; repeat destruct K as [<-|K]; try reflexivity; contradiction).
    destruct (match_str k (w ++ q ++ r)) as [s'|] eqn:M.
    - destruct (match_prefix _ _ _ _ M Kn R') as (w' & -> & ->). destruct w' as [|c w'].
      + exfalso. rewrite app_nil_r in W. unfold ident in W. apply andb_true_iff in W. destruct W as [W _]. apply andb_true_iff in W. destruct W as [_ W].
        apply negb_true_iff in W. rewrite (proj2 (existsb_exists _ _)) in W; [discriminate W|]. exists k. split; [exact K | apply list_eqb_refl].
      + destruct (misses_seq1 (Nt (Rul r_utfw)) (Str []) ((c :: w') ++ q ++ r)) with (be := be) as (n & E).
        { eapply misses_nt, skips_utfw. apply ident_path in W. unfold path_ident in W. destruct k as [|d k]; cbn [app] in W.
          - cbn in K. repeat destruct K as [K|K]; try discriminate; contradiction.
          - apply andb_true_iff in W. destruct W as [_ W]. rewrite forallb_app in W. apply andb_true_iff in W. destruct W as [_ W]. cbn [forallb] in W. apply andb_true_iff in W. apply W. }
        destruct n as [|n]; [discriminate E|]. cbn [run] in E. destruct (grun n (Nt (Rul r_utfw)) ((c :: w') ++ q ++ r) be) as [[a1 a2 a3|a1]|] eqn:E1; try discriminate.
        * exfalso. destruct n as [|n]; discriminate E.
        * injection E as ->. exists (S (S n)). remember (S n) as m. cbn [run]. subst m.
          replace (grun (S n) (Str k) ((k ++ c :: w') ++ q ++ r) be) with (Some (@Match act ((c :: w') ++ q ++ r) be [])) by (cbn [run]; rewrite M; reflexivity).
          rewrite (run_S _ _ _ _ _ _ _ E1). reflexivity.
    - exists 2%nat. cbn [run]. rewrite M. reflexivity.
  Qed.
  Lemma misses_extern w q r : ident w = true -> (q = [] \/ q = [63]) -> stops r -> misses (Str s_extern) (w ++ q ++ r).
  Proof.
    intros W Q R be.
    assert (R' : heads (fun c => negb (name_char c) && (c <? 128)) (q ++ r) = true).
    { destruct Q as [-> | ->]; [apply stop_word, R | reflexivity]. }
    destruct (match_str s_extern (w ++ q ++ r)) as [s'|] eqn:M.
    - exfalso. destruct (match_prefix _ _ _ _ M eq_refl R') as (w' & -> & ->).
      unfold ident in W. apply andb_true_iff in W. destruct W as [_ W]. apply negb_true_iff in W.
      change t_extern with s_extern in W. rewrite prefix_app in W. discriminate W.
    - exists 1%nat. cbn [run]. rewrite M. reflexivity.
  Qed.
  (** a reserved word matches itself *)
  Lemma skips_word k r : forallb name_char k = true -> stops r -> skips (Str k >> Nt (Rul r_utfw)) (k ++ r) r.
  Proof. intros K R. eapply skips_seq; [apply skips_str|]. apply skips_nt, misses_utfw, stop_word, R. Qed.
End Lex.
