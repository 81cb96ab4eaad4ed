(** A printer for programs: it writes one text of each program whose names, strings and
    nesting of operators can be written at all.  [spell] gives the characters of a word. *)
From Verif Require Import Base WordModel WordProofs NumModel NumProofs CompileModel SrcSpec CompileProofs TextSpec.
From Coq Require Import ZifyBool.

Section Print.
  Context (str : list Z -> Z) (spell : Z -> list Z).
  Definition tk (w : list Z) : list Z := w ++ [32].
  Definition comma : list Z := [44; 32].
  Definition p_lit (v : Z) : list Z :=
    tk (if v =? PN_NIL then [110; 105; 108] else if v =? PN_TRUE then [116; 114; 117; 101]
        else if v =? PN_FALSE then [102; 97; 108; 115; 101]
        else if PN_IS_INT v then sprintf_ld (PN_INT v) else quoted (spell v)).
  Fixpoint p_params (ps : list Z) : list Z :=
    match ps with
    | [] => []
    | p :: ps => tk (spell p) ++ match ps with [] => [] | _ => comma ++ p_params ps end
    end.
  Definition p_paren (s : list Z) : list Z := tk [40] ++ s ++ tk [41].
  Definition p_brack (s : list Z) : list Z := tk [91] ++ s ++ tk [93].
  (** a list whose first element is a lick is written in square brackets *)
  Definition is_licks (es : exps) : bool := match es with Cons (ELick _ _) _ => true | _ => false end.
  Definition p_blk (s : list Z) : list Z := tk [58] ++ s ++ tk [46].
  Definition p_index (k : akey) : list Z :=
    match k with AInt i => tk (sprintf_ld i) | AVar y => tk (spell y) | AKey v => tk (quoted (spell v)) end.
  Fixpoint print (e : exp) : list Z :=
    match e with
    | ELit v => p_lit v
    | EVar x | EUp x | ESelfSend0 x => tk (spell x)
    | ESelf => tk t_self
    | EBin p a b => print a ++ tk (op_text p) ++ print b
    | ENot a => tk [110; 111; 116] ++ print a
    | EBitn a => tk [126] ++ print a
    | EAnd a b => print a ++ tk [97; 110; 100] ++ print b
    | EOr a b => print a ++ tk [111; 114] ++ print b
    | ESet x e | EUpSet x e | EGlob x e => tk (spell x) ++ tk [61] ++ print e
    | EInc x up post =>
        let s := if up then [43; 43] else [45; 45] in
        if post then tk (spell x) ++ tk s else s ++ tk (spell x)
    | EPath n => tk (47 :: spell n)
    | EPathOf e n => print e ++ tk (47 :: spell n)
    | EPathSet n e => tk (47 :: spell n) ++ tk [61] ++ print e
    | EList es => if is_licks es then p_brack (print_items es) else p_paren (print_all es)
    | ESeq es => p_paren (print_all es)
    | ESend e m es => print e ++ tk (spell m) ++ p_paren (print_all es)
    | ESend0 e m => print e ++ tk (spell m)
    | ESelfSend m es | ECallVar m es | ECallUp m es => tk (spell m) ++ p_paren (print_all es)
    | ECallVal e es => print e ++ p_paren (print_all es)
    | EIf c b k => tk t_if ++ p_paren (print c) ++ p_blk (print_all b) ++ print_clauses k
    | EWhile c b => tk t_while ++ p_paren (print c) ++ p_blk (print_all b)
    | ELoop b => tk t_loop ++ p_blk (print_all b)
    | EBreak => tk t_break
    | ECont => tk t_continue
    | EReturn e => tk t_return ++ p_paren (print e)
    | ELick _ _ => []
    | EAt _ x k => spell x ++ p_brack (p_index k)
    | EFun l ps b => p_paren (p_params ps) ++ p_blk (print_all b)
    end
  with print_all (es : exps) : list Z :=
    match es with
    | Nil => []
    | Cons e es => print e ++ match es with Nil => [] | _ => comma ++ print_all es end
    end
  with print_items (es : exps) : list Z :=
    match es with
    | Nil => []
    | Cons e es =>
        match e with
        | ELick n ps =>
            tk (spell n) ++
            match ps with
            | Nil => []
            | Cons a Nil => match a with ELit v => p_lit v | EList l => p_brack (print_items l) | _ => [] end
            | Cons a (Cons b _) =>
                match a with ELit v => if v =? PN_NIL then [] else p_lit v | EList l => p_brack (print_items l) | _ => [] end
                ++ match b with EList l => p_paren (print_all l) | _ => [] end
            end
        | _ => []
        end ++ match es with Nil => [] | _ => comma ++ print_items es end
    end
  with print_clauses (k : clauses) : list Z :=
    match k with
    | KEnd => []
    | KElse b => tk t_else ++ p_blk (print_all b)
    | KElsif c b k => tk t_elsif ++ p_paren (print c) ++ p_blk (print_all b) ++ print_clauses k
    end.

  (** Which programs can be written: names that are identifiers (possibly with a
      question mark), non-negative integers, strings of printing characters, and
      operators nested by precedence; anything else has to be put in parentheses *)
  Definition w_name (x : Z) : bool :=
    (str (spell x) =? x) &&
    (ident (spell x) || match rev (spell x) with c :: w => (c =? 63) && ident (rev w) | [] => false end).
  Definition w_path (x : Z) : bool := (str (spell x) =? x) && path_ident (spell x).
  Definition w_lit (v : Z) : bool :=
    (v =? PN_NIL) || (v =? PN_TRUE) || (v =? PN_FALSE)
    || (if PN_IS_INT v then (0 <=? PN_INT v) && (PN_INT v <? two62) && (PN_NUM (PN_INT v) =? v)
        else (str (spell v) =? v) && forallb quotable (spell v)).
  Definition w_index (k : akey) : bool :=
    match k with
    | AInt i => (0 <=? i) && (i <? two62)
    | AVar y => w_name y
    | AKey v => (str (spell v) =? v) && forallb quotable (spell v)
    end.
  Definition receiverb (e : exp) : bool :=
    match e with ENot _ | EBitn _ => false | _ => level e =? 0 end.
  Fixpoint writable (e : exp) : bool :=
    match e with
    | ELit v => w_lit v
    | EVar x | EUp x | ESelfSend0 x | EInc x _ _ => w_name x
    | ESelf | EBreak | ECont => true
    | EBin p a b => src_op p && (level a <=? op_level p) && (level b <? op_level p) && writable a && writable b
    | ENot a | EBitn a => (level a =? 0) && writable a
    | EAnd a b | EOr a b => (level b <? 8) && writable a && writable b
    | ESet x e | EUpSet x e | EGlob x e => w_name x && (level e <? 8) && writable e
    | EPath n => w_path n
    | EPathOf e n => receiverb e && writable e && w_path n
    | EPathSet n e => w_path n && (level e <? 8) && writable e
    | EList es => if is_licks es then writable_items es else writable_all es
    | ESeq es => writable_all es
    | ESend e m es => receiverb e && writable e && w_name m && writable_all es
    | ESend0 e m => receiverb e && writable e && w_name m
    | ESelfSend m es | ECallVar m es | ECallUp m es => w_name m && writable_all es
    | ECallVal e es => receiverb e && negb (open_end e) && writable e && writable_all es
    | EIf c b k => writable c && writable_all b && writable_clauses k
    | EWhile c b => writable c && writable_all b
    | ELoop b => writable_all b
    | EReturn e => writable e
    | ELick _ _ => false
    | EAt _ x k => w_name x && w_index k
    | EFun l ps b => negb (match ps with [] => true | _ => false end) && forallb w_name ps && writable_all b
    end
  with writable_all (es : exps) : bool :=
    match es with Nil => true | Cons e es => writable e && writable_all es end
  with writable_items (es : exps) : bool :=
    match es with
    | Nil => true
    | Cons e es =>
        match e with
        | ELick n ps =>
            w_name n &&
            match ps with
            | Nil => true
            | Cons a Nil => match a with ELit v => w_lit v | EList l => writable_items l | _ => false end
            | Cons a (Cons b Nil) =>
                match a with ELit v => w_lit v | EList l => writable_items l | _ => false end
                && match b with EList l => writable_all l | _ => false end
            | _ => false
            end
        | _ => false
        end && writable_items es
    end
  with writable_clauses (k : clauses) : bool :=
    match k with
    | KEnd => true
    | KElse b => writable_all b
    | KElsif c b k => writable c && writable_all b && writable_clauses k
    end.

  (** ** The printed text is a text of the program *)
  Definition spaced (s : list Z) : Prop := s = [] \/ exists t, s = t ++ [32].
  Lemma spaced_tk w : spaced (tk w).
  Proof. right. exists w. reflexivity. Qed.
  Lemma spaced_comma : spaced comma.
  Proof. right. exists [44]. reflexivity. Qed.
  Lemma spaced_app a b : spaced a -> spaced b -> spaced (a ++ b).
  Proof. intros A [->|(t & ->)]; [rewrite app_nil_r; exact A|]. right. exists (a ++ t). rewrite app_assoc. reflexivity. Qed.
  Lemma spaced_joins a b : spaced a -> joins a b = true.
  Proof. intros [->|(t & ->)]; [reflexivity|]. unfold joins. rewrite rev_app_distr. cbn [rev app]. destruct b; reflexivity. Qed.
  Lemma cat_i (A B : lang) a b : A a -> B b -> spaced a -> (A ^^ B) (a ++ b).
  Proof. intros HA HB S. exists a, b. repeat split; try assumption. apply spaced_joins, S. Qed.
  Lemma tok_i w : tok w (tk w).
  Proof. exists [32]. split; reflexivity. Qed.
  Lemma lines_sp : lines [32].
  Proof. apply lines_blank; [reflexivity | apply lines_nil]. Qed.
  Lemma tokn_i w : tokn w (tk w).
  Proof. exists [32]. split; [exact lines_sp | reflexivity]. Qed.
  Lemma oper_i w : oper w (tk w).
  Proof. exists [32]. split; [exact lines_sp|]. split; [discriminate | reflexivity]. Qed.
  Lemma sep_i : separator comma.
  Proof. exists [32]. split; [apply seps_blank; [reflexivity | apply seps_nil]|]. left. reflexivity. Qed.
  Lemma spaced_paren s : spaced (p_paren s).
  Proof. right. exists (tk [40] ++ s ++ [41]). unfold p_paren, tk. rewrite <- !app_assoc. reflexivity. Qed.
  Lemma spaced_brack s : spaced (p_brack s).
  Proof. right. exists (tk [91] ++ s ++ [93]). unfold p_brack, tk. rewrite <- !app_assoc. reflexivity. Qed.
  Lemma spaced_blk s : spaced (p_blk s).
  Proof. right. exists (tk [58] ++ s ++ [46]). unfold p_blk, tk. rewrite <- !app_assoc. reflexivity. Qed.
  Lemma paren_i (A : lang) s : A s -> spaced s -> paren A (p_paren s).
  Proof. intros H S. apply cat_i; [apply tokn_i | | apply spaced_tk]. apply cat_i; [exact H | apply tok_i | exact S]. Qed.
  Lemma brack_i (A : lang) s : A s -> spaced s -> brack A (p_brack s).
  Proof. intros H S. apply cat_i; [apply tokn_i | | apply spaced_tk]. apply cat_i; [exact H | apply tok_i | exact S]. Qed.
  Lemma blk_i (A : lang) s : A s -> spaced s -> blk A (p_blk s).
  Proof. intros H S. apply cat_i; [apply tokn_i | | apply spaced_tk]. apply cat_i; [exact H | apply tok_i | exact S]. Qed.
  Lemma maybe_i (A : lang) s : A s -> spaced s -> (A ^^ maybe separator) s.
  Proof. intros H S. rewrite <- (app_nil_r s). apply cat_i; [exact H | left; reflexivity | exact S]. Qed.
  Lemma word_i x : w_name x = true -> bare_name str x (spell x).
  Proof.
    unfold w_name. intros H. apply andb_true_iff in H. destruct H as [H1 H2].
    split; [|lia]. unfold ident_q.
    apply orb_true_iff in H2. destruct H2 as [H2|H2]; [left; exact H2|]. right.
    destruct (rev (spell x)) as [|c w] eqn:E; [discriminate|]. apply andb_true_iff in H2. destruct H2 as [C I].
    exists (rev w). split; [exact I|]. rewrite <- (rev_involutive (spell x)), E. cbn [rev]. f_equal. f_equal. lia.
  Qed.
  Lemma name_i x : w_name x = true -> name str x (tk (spell x)).
  Proof. intros H. destruct (word_i x H) as (A & B). exists (spell x). split; [exact A|]. split; [exact B | apply tok_i]. Qed.
  Lemma index_i k : w_index k = true -> index str k (p_index k) /\ spaced (p_index k).
  Proof.
    intros H. destruct k; cbn [w_index index p_index] in *; (split; [|apply spaced_tk]).
    - split; [lia | apply tok_i].
    - apply name_i, H.
    - apply andb_true_iff in H. destruct H as [H1 H2]. exists (spell v). split; [exact H2|]. split; [lia | apply tok_i].
  Qed.
  Lemma path_i x : w_path x = true -> path str x (tk (47 :: spell x)).
  Proof.
    unfold w_path. intros H. apply andb_true_iff in H. destruct H as [H1 H2]. exists (spell x). split; [exact H2|]. split; [lia | apply tok_i].
  Qed.
  Lemma lit_i v : w_lit v = true -> literal str v (p_lit v).
  Proof.
    unfold w_lit, p_lit. intros H. eexists. split; [apply tok_i|].
    destruct (v =? PN_NIL) eqn:E1; [left; split; [lia | reflexivity]|].
    destruct (v =? PN_TRUE) eqn:E2; [right; left; split; [lia | reflexivity]|].
    destruct (v =? PN_FALSE) eqn:E3; [right; right; left; split; [lia | reflexivity]|].
    cbn [orb] in H. destruct (PN_IS_INT v).
    - right; right; right; left. exists (PN_INT v). repeat split; lia.
    - right; right; right; right. exists (spell v). apply andb_true_iff in H. destruct H. repeat split; [assumption | lia].
  Qed.
  Lemma receiver_i e : receiverb e = true -> receiver e.
  Proof. destruct e; cbn [receiverb receiver]; try discriminate; try (intros _; reflexivity); intros; lia. Qed.
  Lemma params_i ps : forallb w_name ps = true -> params str ps (p_params ps) /\ spaced (p_params ps).
  Proof.
    induction ps as [|p ps IH]; cbn [forallb params p_params]; intros H; [split; [reflexivity | left; reflexivity]|].
    apply andb_true_iff in H. destruct H as [H1 H2]. destruct (IH H2) as [A B].
    destruct ps as [|q ps].
    - rewrite app_nil_r. split; [apply maybe_i; [apply name_i, H1 | apply spaced_tk] | apply spaced_tk].
    - split; [|apply spaced_app; [apply spaced_tk | apply spaced_app; [exact spaced_comma | exact B]]].
      apply cat_i; [apply name_i, H1 | | apply spaced_tk]. apply cat_i; [exact sep_i | exact A | exact spaced_comma].
  Qed.
  Ltac bools := repeat match goal with H : _ && _ = true |- _ => apply andb_true_iff in H; destruct H end.
  Ltac sp := repeat first [apply spaced_tk | exact spaced_comma | apply spaced_paren | apply spaced_blk | assumption | apply spaced_app].
  Definition pr (e : exp) : Prop := writable e = true -> text str e (print e) /\ spaced (print e).
  Definition p_inner (e : exp) : list Z := match e with ELit v => p_lit v | EList l => p_brack (print_items l) | _ => [] end.
  Definition t_inner (e : exp) : lang := match e with ELit v => literal str v | EList l => brack (items str l) | _ => fun _ => False end.
  Definition w_inner (e : exp) : bool := match e with ELit v => w_lit v | EList l => writable_items l | _ => false end.
  Definition pr_inner (e : exp) : Prop := w_inner e = true -> t_inner e (p_inner e) /\ spaced (p_inner e).
  Definition pr_attrs (e : exp) : Prop := match e with EList l => writable_all l = true -> body str l (print_all l) /\ spaced (print_all l) | _ => True end.
  Definition pr_item (e : exp) : Prop := match e with ELick n ps =>
      writable_items (Cons e Nil) = true -> forall r : lang, forall s, r s -> spaced s ->
      match ps with Nil => (name str n ^^ empty) ^^ r
      | Cons a Nil => (name str n ^^ t_inner a) ^^ r
      | Cons a (Cons b Nil) => (name str n ^^ match a, b with
                | ELit v, EList l => if v =? PN_NIL then paren (body str l) else either_order (literal str v) (paren (body str l))
                | EList c, EList l => either_order (brack (items str c)) (paren (body str l))
                | _, _ => fun _ => False
                end) ^^ r
      | _ => fun _ => False end ((tk (spell n) ++
            match ps with
            | Nil => []
            | Cons a Nil => p_inner a
            | Cons a (Cons b _) =>
                match a with ELit v => if v =? PN_NIL then [] else p_lit v | EList l => p_brack (print_items l) | _ => [] end
                ++ match b with EList l => p_paren (print_all l) | _ => [] end
            end) ++ s) | _ => True end.
  Definition pr_list (es : exps) : Prop := writable_all es = true -> body str es (print_all es) /\ spaced (print_all es).
  Definition pr_items (es : exps) : Prop := writable_items es = true -> items str es (print_items es) /\ spaced (print_items es).
  Definition pr_parts (es : exps) : Prop := match es with Cons b _ => pr_attrs b | Nil => True end /\ forall n, pr_item (ELick n es).
  Lemma spaced_lit v : spaced (p_lit v).
  Proof. apply spaced_tk. Qed.
  Lemma parts_nil_p : pr_parts Nil.
  Proof.
    split; [exact Logic.I|]. intros n W r s H S. cbn [writable_items] in W. rewrite app_nil_r. apply cat_i; [|exact H|apply spaced_tk].
    rewrite <- (app_nil_r (tk _)). apply cat_i; [apply name_i; bools; assumption | reflexivity | apply spaced_tk].
  Qed.
  Lemma parts_cons_p a es : pr_inner a -> pr_attrs a -> match es with Cons b _ => pr_attrs b | Nil => True end -> pr_parts (Cons a es).
  Proof.
    intros GI GA HB. split; [exact GA|]. intros n W r s H S. cbn [writable_items] in W. bools.
    destruct es as [|b [|? ?]]; [| |discriminate].
    - destruct (GI ltac:(assumption)) as [P1 P2]. apply cat_i; [|exact H|apply spaced_app; [apply spaced_tk | exact P2]].
      apply cat_i; [apply name_i; assumption | exact P1 | apply spaced_tk].
    - match goal with K : _ && _ = true |- _ => apply andb_true_iff in K; destruct K as [K1 K2] end.
      destruct b; try discriminate K2. destruct (HB K2) as [Q1 Q2]. destruct (GI K1) as [P1 P2].
      apply cat_i; [|exact H|].
      + apply cat_i; [apply name_i; assumption| |apply spaced_tk].
        destruct a; try discriminate K1; cbn [t_inner p_inner] in *.
        * destruct (v =? PN_NIL); [apply paren_i; assumption|]. left. apply cat_i; [exact P1 | apply paren_i; assumption | exact P2].
        * left. apply cat_i; [exact P1 | apply paren_i; assumption | exact P2].
      + apply spaced_app; [apply spaced_tk|]. apply spaced_app; [|apply spaced_paren].
        destruct a; try discriminate K1; cbn [p_inner] in P2; [destruct (v =? PN_NIL); [left; reflexivity | exact P2] | exact P2].
  Qed.
  Lemma plain_p e : match e with ELit _ | EList _ | ELick _ _ => False | _ => True end -> pr e -> pr e /\ pr_inner e /\ pr_attrs e /\ pr_item e.
  Proof. intros H G. split; [exact G|]. destruct e; try contradiction H; (split; [discriminate|]; split; exact Logic.I). Qed.
  Lemma items_cons_p e es : pr_item e -> pr_items es -> pr_items (Cons e es).
  Proof.
    intros A B W. destruct e; try discriminate W.
    assert (W1 : writable_items (Cons (ELick n es0) Nil) = true).
    { cbn [writable_items] in *. apply andb_true_iff in W. destruct W as [W _]. rewrite W. reflexivity. }
    assert (W2 : writable_items es = true).
    { cbn [writable_items] in W. apply andb_true_iff in W. apply W. }
    destruct (B W2) as [B1 B2]. specialize (A W1).
    set (q := match es with Nil => maybe separator | _ => separator ^^ items str es end).
    set (s := match es with Nil => [] | _ => comma ++ print_items es end).
    assert (Q : q s /\ spaced s).
    { unfold q, s. destruct es; [split; left; reflexivity|]. split; [apply cat_i; [exact sep_i | exact B1 | exact spaced_comma] | apply spaced_app; [exact spaced_comma | exact B2]]. }
    destruct Q as [Q1 Q2]. specialize (A q s Q1 Q2).
    split.
    - destruct es0 as [|a [|b [|? ?]]]; exact A || contradiction A.
    - change (spaced (print_items (Cons (ELick n es0) es))).
      assert (X : exists t, print_items (Cons (ELick n es0) es) = (tk (spell n) ++ t) ++ s /\ spaced t).
      { cbn [print_items]. fold s. eexists. split; [reflexivity|].
        destruct es0 as [|a [|b z]]; [left; reflexivity|..].
        - destruct a; try (left; reflexivity); [apply spaced_lit | apply spaced_brack].
        - apply spaced_app; [destruct a; try (left; reflexivity); [destruct (v =? PN_NIL); [left; reflexivity | apply spaced_lit] | apply spaced_brack]|].
          destruct b; try (left; reflexivity). apply spaced_paren. }
      destruct X as (t & -> & St). apply spaced_app; [apply spaced_app; [apply spaced_tk | exact St] | exact Q2].
  Qed.
  Lemma print_all_i :
    (forall e, pr e /\ pr_inner e /\ pr_attrs e /\ pr_item e) /\
    (forall es, pr_list es /\ pr_items es /\ pr_parts es) /\
    (forall k, writable_clauses k = true -> text_clauses str k (print_clauses k) /\ spaced (print_clauses k)).
  Proof.
    apply exp_ind3; intros; try (apply plain_p; [exact Logic.I|]; unfold pr);
      repeat match goal with K : pr _ /\ _ |- _ => let A := fresh in pose proof (proj1 K) as A; unfold pr in A; revert K end; intros;
      repeat match goal with K : pr_list _ /\ _ |- _ => let A := fresh in let B := fresh in destruct K as [A B]; unfold pr_list in A end;
      cbn [writable writable_all writable_clauses] in *; intros; bools;
      repeat match goal with IH : ?P = true -> _, H : ?P = true |- _ => specialize (IH H); destruct IH end;
      cbn [text body text_clauses print print_all print_clauses]; cbv zeta.
    all: try (split; [|sp]; unfold only; repeat match goal with |- _ /\ _ => split end;
      try (apply receiver_i; assumption); try assumption; try lia; try (apply tok_i);
      try (apply name_i; assumption); try (apply path_i; assumption); try (apply lit_i; assumption);
      repeat first [apply cat_i | apply name_i; assumption | apply path_i; assumption | apply oper_i | apply tokn_i | apply tok_i
        | apply paren_i | apply blk_i | apply maybe_i | sp; fail | assumption]; fail).
  - split; [|split; [|split; [exact Logic.I | exact Logic.I]]].
    + intros W. split; [apply lit_i; exact W | apply spaced_lit].
    + intros W. split; [apply lit_i; exact W | apply spaced_lit].
  - destruct post.
    + split; [|sp]. apply cat_i; [apply name_i; assumption | apply tok_i | apply spaced_tk].
    + split; [|right; eexists; unfold tk; rewrite app_assoc; reflexivity].
      eexists. eexists. split; [reflexivity|]. split; [reflexivity|]. split; [apply name_i; assumption|].
      destruct up; unfold joins; cbn [rev app]; destruct (tk (spell x)); reflexivity.
  - match goal with A : _ -> body _ _ _ /\ _, B : pr_items es /\ _ |- _ => rename A into GB; destruct B as [GI _] end.
    split; [|split; [|split; [exact GB | exact Logic.I]]].
    + unfold pr. cbn [writable text print]. destruct (is_licks es); intros W.
      * destruct (GI W). split; [right; apply brack_i; assumption | apply spaced_brack].
      * destruct (GB W). split; [left; apply paren_i; assumption | apply spaced_paren].
    + intros W. destruct (GI W). split; [apply brack_i; assumption | apply spaced_brack].
  - match goal with B : pr_items es /\ _ |- _ => destruct B as (_ & _ & P) end.
    split; [intros W; discriminate W|]. split; [intros W; discriminate W|]. split; [exact Logic.I | apply P].
  - match goal with K : w_index _ = true |- _ => destruct (index_i _ K) as [I1 I2] end.
    split; [|right; exists (spell x ++ tk [91] ++ p_index k ++ [93]); unfold p_brack, tk; rewrite <- !app_assoc; reflexivity].
    exists (spell x), (p_brack (p_index k)). split; [reflexivity|]. split; [apply word_i; assumption|].
    split; [apply brack_i; [apply maybe_i|]; assumption|]. unfold p_brack, tk, joins. cbn [app]. destruct (rev (spell x)); [reflexivity|]. rewrite andb_false_r. cbn. rewrite andb_false_r. reflexivity.
  - split; [|sp]. split; [destruct ps; discriminate|]. destruct (params_i ps) as [P1 P2]; [assumption|].
    apply cat_i; [apply paren_i; assumption | apply blk_i; assumption | apply spaced_paren].
  - split; [intros _; split; [reflexivity | left; reflexivity]|]. split; [intros _; split; [reflexivity | left; reflexivity] | apply parts_nil_p].
  - match goal with K : pr e /\ _ |- _ => destruct K as (G1 & G2 & G3 & G4) end.
    match goal with K : pr_items es /\ _ |- _ => destruct K as (G5 & G6 & _) end.
    split; [|split; [apply items_cons_p; assumption | apply parts_cons_p; assumption]].
    unfold pr_list. cbn [writable_all]. intros; bools; repeat match goal with IH : ?P = true -> _, H : ?P = true |- _ => specialize (IH H); destruct IH end;
    cbn [body print_all].
    destruct es as [|e' es].
    + rewrite app_nil_r. split; [apply maybe_i; assumption | assumption].
    + split; [|sp]. apply cat_i; [assumption | | assumption]. apply cat_i; [exact sep_i | assumption | exact spaced_comma].
  - split; [reflexivity | left; reflexivity].
  Qed.
  Lemma print_i :
    (forall e, writable e = true -> text str e (print e) /\ spaced (print e)) /\
    (forall es, writable_all es = true -> body str es (print_all es) /\ spaced (print_all es)) /\
    (forall k, writable_clauses k = true -> text_clauses str k (print_clauses k) /\ spaced (print_clauses k)).
  Proof. destruct print_all_i as (A & B & C). split; [intros e; apply A|]. split; [intros es; apply B | exact C]. Qed.
  Lemma print_program es : writable_all es = true -> program_text str es (print_all es).
  Proof. intros H. exists [], (print_all es). split; [apply lines_nil|]. split; [apply print_i, H | reflexivity]. Qed.
End Print.
