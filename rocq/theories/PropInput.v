(** C64: what the parser makes of a text does not depend on how the text gets into the
    parser's buffer: refilling, doubling the buffer, positions kept as offsets and texts
    read from the buffer only after the whole match give what the plain grammar gives.
    It holds for texts shorter than the first buffer (16384 characters); a longer text
    makes the first refill write behind the buffer. *)
From Verif Require Import Base Arr CompileModel PegModel PegTerm SyntaxModel SyntaxTerm TextSpec CompileEq CompileTotal BufModel BufProofs PropParse.
From Coq Require Import ZifyBool.
Ltac Zify.zify_post_hook ::= Z.div_mod_to_equations.

Section Yydone.
  Context (str dbl : list Z -> Z).
  (** compile.c 775-788 yyDone.  An action whose end is 0 is not given its own text but
      what G->text holds ([old]), up to its begin *)
  Definition done_text (buf old : list Z) (b e : Z) : list Z :=
    if e =? 0 then firstn (Z.to_nat b) old else yytext buf b e.
  Fixpoint yydone (buf old : list Z) (l : list (bth act)) (st : pst) : xres :=
    match l with
    | [] => XOk st
    | t :: l =>
        let '(th, old') := match t with
          | BPush n => (TPush n, old)
          | BPop n => (TPop n, old)
          | BSet k => (TSet k, old)
          | BAct a b e => let x := done_text buf old b e in (TAct a x, if e =? 0 then old else x)
          end in
        match do_thunk str dbl th st with XOk st' => yydone buf old' l st' | r => r end
    end.
  (** syntax.y 387-418 potion_parse on the buffer; [old] is what the malloc'ed G->text holds *)
  Inductive bparsed := BDone (p : parsed) | BOverflow.
  Definition parse_buf (slack : bool) (n : nat) (junk : Z -> sf) (old text : list Z) : option bparsed :=
    match runb grammar nvars text slack n (Rul r_potion) start with
    | BMore => None
    | BUB => Some BOverflow
    | BFail _ => Some (BDone PReject)
    | BMatch g =>
        Some (BDone match yydone (g_buf g) old (g_ths g) (start_pst junk) with
             | XOk st => match psource st with
                         | SSrc t => if part_eqb (sp t) CODE then PTree t else PReject
                         | _ => PUndef
                         end
             | XError => PError
             | XUB => PUndef
             end)
    end.
  (** syntax.y 443-474 potion_sig on the buffer; P->pbuf is NULL (452) *)
  Definition bclears (t : bth act) : bool := match t with BAct AClear _ _ => true | _ => false end.
  Inductive bsigd := BSDone (p : sigd) | BSOverflow.
  Definition sig_buf (slack : bool) (n : nat) (junk : Z -> sf) (old text : list Z) : option bsigd :=
    match runb grammar nvars text slack n (Rul r_sig) start with
    | BMore => None
    | BUB => Some BSOverflow
    | BFail _ => Some (BSDone PSReject)
    | BMatch g =>
        Some (BSDone (if existsb bclears (g_ths g) then PSUndef else
             match yydone (g_buf g) old (g_ths g) (start_pst junk) with
             | XOk st => PSig (psig st)
             | XError => PSError
             | XUB => PSUndef
             end))
    end.
End Yydone.

(** ** No action sees a stale text *)
(** the actions that use their text *)
Definition reads_text (a : act) : bool :=
  match a with AStrn | AHex | ADec | AWrite | AEscu | AEscU | AChar => true | _ => false end.
Lemma reads_text_ok str dbl a t t' st : reads_text a = false -> do_act str dbl a t st = do_act str dbl a t' st.
Proof. destruct a; intros H; try discriminate H; reflexivity. Qed.
(** [chk e p t]: given that the position ([p]) and the end ([t]) are known not to be 0,
    check that no text ends at 0 and that no action reads a text that does; what is known
    after a match *)
Definition sets_end (r : rule) : bool := match r with r_hex | r_dec => true | _ => false end.
Fixpoint chk (e : gpe) (p t : bool) : option (bool * bool) :=
  match e with
  | Chr _ | Cls _ | Dot => Some (true, t)
  | Str l => Some (p || match l with [] => false | _ => true end, t)
  | Seq a b => match chk a p t with Some (p, t) => chk b p t | None => None end
  | Alt a b => match chk a p t, chk b p t with Some (p1, t1), Some (p2, t2) => Some (p1 && p2, t1 && t2) | _, _ => None end
  | Star a | Opt a | Nt a => match chk a p t with Some _ => Some (p, t) | None => None end
  | Plus a => match chk a p t with Some (p, t) => match chk a p t with Some _ => Some (p, t) | None => None end | None => None end
  | Rul r | Var _ r => Some (p || negb (maybe_empty r), t || sets_end r)
  | Act a => if reads_text a && negb t then None else Some (p, t)
  | Bg => Some (p, t)
  | En => if p then Some (p, true) else None
  end.
Lemma chk_rules r : exists p t, chk (grammar r) false false = Some (p, t) /\ (maybe_empty r = false -> p = true) /\ (sets_end r = true -> t = true).
Proof. destruct r; vm_compute; do 2 eexists; (split; [reflexivity | split; congruence]). Qed.

Section Stale.
  Context (input : list Z) (slack : bool).
  Notation greg := (greg act).
  Definition fresh_th (t : bth act) : Prop := match t with BAct a _ e => reads_text a = true -> 0 < e | _ => True end.
  Definition fresh (g : greg) : Prop := 0 <= g_pos g /\ 0 <= g_end g /\ Forall fresh_th (g_ths g).
  Definition knows (p t : bool) (g : greg) : Prop := (p = true -> 0 < g_pos g) /\ (t = true -> 0 < g_end g).
  Lemma avail_keeps (g : greg) : match avail input slack g with
    | BMatch g' | BFail g' => g_pos g' = g_pos g /\ g_end g' = g_end g /\ g_ths g' = g_ths g
    | _ => True end.
  Proof.
    unfold avail. destruct (_ <=? _); [|auto]. unfold yyrefill. destruct (grow 31 (g_pos g) (g_buf g)); [|exact Logic.I]. cbv zeta.
    destruct (_ <? _); [|cbn; auto]. destruct (_ <? _ + 1); [destruct slack|]; cbn; auto.
  Qed.
  Lemma string_keeps l : forall s (g : greg), 0 <= s -> 0 <= g_pos g -> match matchString input slack s l g with
    | BMatch g' => g_pos g' = g_pos g + zlen l /\ g_end g' = g_end g /\ g_ths g' = g_ths g
    | BFail g' => 0 <= g_pos g' /\ g_end g' = g_end g /\ g_ths g' = g_ths g
    | _ => True end.
  Proof.
    induction l as [|c l IH]; intros s g Hs Hg; cbn [matchString]; [cbn; rewrite Z.add_0_r; auto|].
    pose proof (avail_keeps g) as K. destruct (avail input slack g) as [g'|g'| |]; try exact Logic.I.
    - destruct K as (K1 & K2 & K3). destruct (cur g' =? c).
      + specialize (IH s (adv g') Hs ltac:(cbn; lia)). destruct (matchString input slack s l (adv g')); try exact Logic.I.
        * destruct IH as (A & B & C). cbn in A, B, C. rewrite zlen_cons, A, B, C, K1. split; [lia | auto].
        * destruct IH as (A & B & C). cbn in B, C. rewrite B, C. auto.
      + cbn. auto.
    - destruct K as (K1 & K2 & K3). rewrite K1. auto.
  Qed.
  Lemma fresh_firstn n l : Forall fresh_th l -> Forall fresh_th (firstn n l).
  Proof. intros H. revert n. induction H; destruct n; cbn; constructor; auto. Qed.
  Lemma restore_fresh g g' : fresh g -> fresh g' -> fresh (restore g g').
  Proof. intros (A & B & C) (D & E & F). cbn. split; [exact A|]. split; [exact E | apply fresh_firstn, F]. Qed.
  Lemma yydo_fresh t g : fresh g -> fresh_th t -> fresh (yydo t g).
  Proof. intros (A & B & C) H. cbn. split; [exact A|]. split; [exact B|]. apply Forall_app. auto. Qed.

  Definition keeps (p' t' : bool) (g : greg) (r : bres act) : Prop :=
    match r with
    | BMatch g' => fresh g' /\ g_pos g <= g_pos g' /\ (0 < g_end g -> 0 < g_end g') /\ knows p' t' g'
    | BFail g' => fresh g' /\ (0 < g_end g -> 0 < g_end g')
    | _ => True
    end.
  Ltac cj := repeat match goal with |- _ /\ _ => split end.
  Lemma one_keeps (f : Z -> bool) t g : fresh g -> (t = true -> 0 < g_end g) ->
    keeps true t g (match avail input slack g with BMatch g => if f (cur g) then BMatch (adv g) else BFail g | r => r end).
  Proof.
    intros (F1 & F2 & F3) T. pose proof (avail_keeps g) as K. destruct (avail input slack g) as [g'|g'| |]; try exact Logic.I.
    - destruct K as (K1 & K2 & K3). destruct (f (cur g')); unfold keeps, fresh, knows; cbn; rewrite ?K1, ?K2, ?K3; cj; auto; lia.
    - destruct K as (K1 & K2 & K3). unfold keeps, fresh; cbn; rewrite ?K1, ?K2, ?K3; cj; auto; lia.
  Qed.
  Lemma runb_keeps : forall n e p t p' t' g, chk e p t = Some (p', t') -> fresh g -> knows p t g ->
    keeps p' t' g (runb grammar nvars input slack n e g).
  Proof.
    induction n as [|n IH]; intros e p t p' t' g C F K; [exact Logic.I|].
    destruct e; cbn [chk] in C; cbn [runb].
    - injection C as <- <-. apply (one_keeps (fun x => x =? c)); [exact F | apply K].
    - injection C as <- <-. pose proof (string_keeps l (g_pos g) g (proj1 F) (proj1 F)) as S. destruct (matchString input slack (g_pos g) l g) as [g'|g'| |]; try exact Logic.I.
      + destruct S as (S1 & S2 & S3). destruct F as (F1 & F2 & F3). destruct K as (K1 & K2). unfold keeps, fresh, knows. rewrite S1, S2, S3.
        pose proof (zlen_nonneg l). cj; auto; try lia. intros Q. destruct l; [rewrite orb_false_r in Q; specialize (K1 Q); lia|].
        rewrite zlen_cons in *. pose proof (zlen_nonneg l). lia.
      + destruct S as (S1 & S2 & S3). destruct F as (F1 & F2 & F3). unfold keeps, fresh. rewrite S2, S3. auto.
    - injection C as <- <-. apply one_keeps; [exact F | apply K].
    - injection C as <- <-. apply (one_keeps (fun _ => true)); [exact F | apply K].
    - destruct (chk e1 p t) as [[p1 t1]|] eqn:E1; [|discriminate]. pose proof (IH e1 p t p1 t1 g E1 F K) as H1.
      destruct (runb grammar nvars input slack n e1 g) as [g1|g1| |]; try exact H1. destruct H1 as (F1 & L1 & T1 & K1).
      pose proof (IH e2 p1 t1 p' t' g1 C F1 K1) as H2. destruct (runb grammar nvars input slack n e2 g1) as [g2|g2| |]; try exact H2.
      + destruct H2 as (F2 & L2 & T2 & K2). cbn. unfold knows. cj; auto; try apply F2; try apply K2. lia.
      + destruct H2 as (F2 & T2). cbn. auto.
    - destruct (chk e1 p t) as [[p1 t1]|] eqn:E1; [|discriminate]. destruct (chk e2 p t) as [[p2 t2]|] eqn:E2; [|discriminate].
      injection C as <- <-. pose proof (IH e1 p t p1 t1 g E1 F K) as H1.
      destruct (runb grammar nvars input slack n e1 g) as [g1|g1| |]; try exact Logic.I.
      + destruct H1 as (F1 & L1 & T1 & K1a & K1b). cbn. unfold knows. cj; auto; try apply F1; intros Q; apply andb_true_iff in Q; destruct Q; auto.
      + destruct H1 as (F1 & T1). assert (Kr : knows p t (restore g g1)) by (destruct K as (K1 & K2); split; cbn; auto).
        pose proof (IH e2 p t p2 t2 _ E2 (restore_fresh g g1 F F1) Kr) as H2.
        destruct (runb grammar nvars input slack n e2 (restore g g1)) as [g2|g2| |]; try exact Logic.I.
        * destruct H2 as (F2 & L2 & T2 & K2a & K2b). cbn in L2, T2. cbn. unfold knows. cj; auto; try apply F2; intros Q; apply andb_true_iff in Q; destruct Q; auto.
        * destruct H2 as (F2 & T2). cbn in T2. cbn. auto.
    - destruct (chk e p t) as [[p1 t1]|] eqn:E1; [|discriminate]. injection C as <- <-. pose proof (IH e p t p1 t1 g E1 F K) as H1.
      destruct (runb grammar nvars input slack n e g) as [g1|g1| |]; try exact Logic.I.
      + destruct H1 as (F1 & L1 & T1 & _). assert (K1 : knows p t g1) by (destruct K as (Ka & Kb); split; intros Q; [specialize (Ka Q); lia | auto]).
        pose proof (IH (Star e) p t p t g1 ltac:(cbn [chk]; rewrite E1; reflexivity) F1 K1) as H2.
        destruct (runb grammar nvars input slack n (Star e) g1) as [g2|g2| |]; try exact Logic.I.
        * destruct H2 as (F2 & L2 & T2 & K2). cbn. unfold knows. cj; auto; try apply F2; try apply K2. lia.
        * destruct H2 as (F2 & T2). cbn. auto.
      + destruct H1 as (F1 & T1). destruct K as (Ka & Kb). cbn. unfold knows. cj; auto; try apply (restore_fresh g g1 F F1). lia.
    - exact (IH (Seq e (Star e)) p t p' t' g C F K).
    - destruct (chk e p t) as [[p1 t1]|] eqn:E1; [|discriminate]. injection C as <- <-. pose proof (IH e p t p1 t1 g E1 F K) as H1.
      destruct (runb grammar nvars input slack n e g) as [g1|g1| |]; try exact Logic.I.
      + destruct H1 as (F1 & L1 & T1 & _). destruct K as (Ka & Kb). cbn. unfold knows. cj; auto; try apply F1. intros Q; specialize (Ka Q); lia.
      + destruct H1 as (F1 & T1). destruct K as (Ka & Kb). cbn. unfold knows. cj; auto; try apply (restore_fresh g g1 F F1). lia.
    - destruct (chk e p t) as [[p1 t1]|] eqn:E1; [|discriminate]. injection C as <- <-. pose proof (IH e p t p1 t1 g E1 F K) as H1.
      destruct (runb grammar nvars input slack n e g) as [g1|g1| |]; try exact Logic.I.
      + destruct H1 as (F1 & L1 & T1 & _). cbn. auto.
      + destruct H1 as (F1 & T1). destruct K as (Ka & Kb). cbn. unfold knows. cj; auto; try apply (restore_fresh g g1 F F1). lia.
    - injection C as <- <-. cbv zeta. set (g1 := if nvars r =? 0 then g else yydo (BPush (nvars r)) g).
      assert (F1 : fresh g1) by (unfold g1; destruct (_ =? _); [exact F | apply yydo_fresh; [exact F | exact Logic.I]]).
      assert (P1 : g_pos g1 = g_pos g /\ g_end g1 = g_end g) by (unfold g1; destruct (_ =? _); auto). destruct P1 as [P1 P2].
      destruct (chk_rules r) as (pr & tr & CR & HP & HT).
      pose proof (IH (grammar r) false false pr tr g1 CR F1 ltac:(split; discriminate)) as H1.
      destruct (runb grammar nvars input slack n (grammar r) g1) as [g2|g2| |]; try exact Logic.I.
      + destruct H1 as (F2 & L2 & T2 & Ka & Kb). rewrite P1 in L2. rewrite P2 in T2.
        assert (KK : keeps (p || negb (maybe_empty r)) (t || sets_end r) g (BMatch g2)).
        { destruct K as (Kp & Kt). cbn. unfold knows. cj; auto; try apply F2; intros Q; apply orb_true_iff in Q; destruct Q as [Q|Q].
          - specialize (Kp Q). lia.
          - apply Ka, HP. destruct (maybe_empty r); [discriminate|reflexivity].
          - auto.
          - auto. }
        destruct (nvars r =? 0); [exact KK|]. destruct KK as (A & B & C' & D). split; [apply yydo_fresh; [exact A | exact Logic.I]|]. auto.
      + destruct H1 as (F2 & T2). rewrite P2 in T2. split; [apply restore_fresh; assumption|]. exact T2.
    - pose proof (IH (Rul r) p t p' t' g C F K) as H1. destruct (runb grammar nvars input slack n (Rul r) g) as [g1|g1| |]; try exact H1.
      destruct H1 as (A & B & C' & D). split; [apply yydo_fresh; [exact A | exact Logic.I]|]. auto.
    - destruct (reads_text a && negb t) eqn:E; [discriminate|]. injection C as <- <-. split; [apply yydo_fresh; [exact F|]|].
      + cbn. intros Q. rewrite Q in E. destruct t; [apply K; reflexivity | discriminate].
      + cbn. destruct K. unfold knows. cbn. cj; auto; lia.
    - injection C as <- <-. destruct F as (F1 & F2 & F3), K as (K1 & K2). cbn. unfold fresh, knows. cbn. unfold knows. cj; auto. lia.
    - destruct p; [|discriminate]. injection C as <- <-. destruct F as (F1 & F2 & F3), K as (K1 & K2). specialize (K1 eq_refl).
      cbn. unfold fresh, knows. cbn. unfold knows. cj; auto; lia.
  Qed.
End Stale.

Lemma yytext_same buf input lim b e : (forall i, 0 <= i < lim -> znth buf i = znth input i) -> lim <= zlen buf -> lim <= zlen input ->
  0 <= b <= lim -> 0 <= e <= lim -> yytext buf b e = yytext input b e.
Proof.
  intros H L1 L2 B E. unfold yytext. change (zsub buf b (e - b) = zsub input b (e - b)).
  destruct (Z_le_gt_dec b e) as [G|G].
  - apply znth_ext; [rewrite !zlen_zsub; lia|]. intros i Hi. rewrite zlen_zsub in Hi by lia. rewrite !znth_zsub by lia. apply H. lia.
  - unfold zsub. replace (Z.to_nat (e - b)) with 0%nat by lia. reflexivity.
Qed.
Lemma yydone_exec str dbl buf input lim : (forall i, 0 <= i < lim -> znth buf i = znth input i) -> lim <= zlen buf -> lim <= zlen input ->
  forall l old st, Forall fresh_th l -> Forall (in_buf lim) l -> yydone str dbl buf old l st = exec str dbl (map (resolve input) l) st.
Proof.
  intros H L1 L2. induction l as [|t l IH]; intros old st F B; [reflexivity|].
  inversion F as [|? ? Ft Fl]; subst. inversion B as [|? ? Bt Bl]; subst. cbn [yydone map exec].
  destruct t as [n|n|k|a b e]; cbn [resolve]; try (destruct (do_thunk _ _ _ _); [apply IH; assumption | reflexivity | reflexivity]).
  cbn in Ft, Bt. assert (K : do_thunk str dbl (TAct a (done_text buf old b e)) st = do_thunk str dbl (TAct a (yytext input b e)) st).
  { cbn [do_thunk]. destruct (reads_text a) eqn:R; [|apply reads_text_ok, R]. f_equal. unfold done_text. specialize (Ft eq_refl).
    replace (e =? 0) with false by lia. apply (yytext_same _ _ lim); assumption || lia. }
  cbv zeta. rewrite K. clear K. destruct (do_thunk str dbl (TAct a (yytext input b e)) st); [apply IH; assumption | reflexivity | reflexivity].
Qed.

Lemma buffered slack r n text : zlen text < 536870912 -> slack = true \/ zlen text < 16384 ->
  match run grammar nvars n (Rul r) text (text, text), runb grammar nvars text slack n (Rul r) start with
  | None, BMore => True
  | Some (Fail _), BFail _ => True
  | Some (Match _ _ l), BMatch g => (forall str dbl old st, yydone str dbl (g_buf g) old (g_ths g) st = exec str dbl l st)
      /\ existsb bclears (g_ths g) = existsb clears l
  | _, _ => False
  end.
Proof.
  intros L S. assert (I := start_inv (A:=act) text slack).
  assert (F : fresh start) by (split; [cbn; lia|]; split; [cbn; lia | constructor]).
  pose proof (runb_keeps text slack n (Rul r) false false _ _ start eq_refl F ltac:(split; discriminate)) as K.
  pose proof (runb_same grammar nvars text slack L S n (Rul r) start I) as H. change (rest_of text start) with text in H. change (be_of text start) with (text, text) in H.
  unfold same in H. destruct (run grammar nvars n (Rul r) text (text, text)) as [[s be t|be]|], (runb grammar nvars text slack n (Rul r) start) as [g|g| |]; try contradiction; try exact Logic.I.
  destruct H as (Ig & _ & _ & _ & t' & T & <-). destruct K as ((_ & _ & K) & _). change (g_ths start) with (@nil (bth act)) in T. cbn in T. subst t'.
  split.
  - intros str dbl old st. destruct Ig as [Jl Jm Jb Jp Jg Je Jy Jt]. apply (yydone_exec _ _ _ _ (g_lim g)); try assumption; lia.
  - clear. induction (g_ths g) as [|[n|n|k|a b e] l IH]; cbn [map existsb]; [reflexivity|..]; rewrite IH; reflexivity.
Qed.

(** the buffer may be refilled and doubled any number of times ([slack]: the character
    behind the buffer may be written) *)
Theorem C64_buffering_does_not_matter str dbl slack n junk old text :
  zlen text < 536870912 -> slack = true \/ zlen text < 16384 ->
  parse_buf str dbl slack n junk old text = option_map BDone (parse_n str dbl n junk text).
Proof.
  intros L S. pose proof (buffered slack r_potion n text L S) as H. unfold parse_buf, parse_n.
  destruct (run grammar nvars n (Rul r_potion) text (text, text)) as [[s be t|be]|], (runb grammar nvars text slack n (Rul r_potion) start) as [g|g| |]; try contradiction; try reflexivity.
  destruct H as [H _]. rewrite H. reflexivity.
Qed.
Theorem C64_signature_buffering_does_not_matter str dbl slack n junk old text :
  zlen text < 536870912 -> slack = true \/ zlen text < 16384 ->
  sig_buf str dbl slack n junk old text = option_map BSDone (sig_n str dbl n junk text).
Proof.
  intros L S. pose proof (buffered slack r_sig n text L S) as H. unfold sig_buf, sig_n.
  destruct (run grammar nvars n (Rul r_sig) text (text, text)) as [[s be t|be]|], (runb grammar nvars text slack n (Rul r_sig) start) as [g|g| |]; try contradiction; try reflexivity.
  destruct H as [H K]. rewrite H, K. reflexivity.
Qed.
(** the text of a program that fits into the first buffer gives the program's tree *)
Theorem C64_short_program str dbl junk old es text : names_ok str -> program_text str es text -> zlen text < 16384 ->
  exists n, forall m, (n <= m)%nat -> parse_buf str dbl false m junk old text = Some (BDone (PTree (program es))).
Proof.
  intros NK T L. destruct (C60_parse_builds_the_tree str dbl junk es text NK T) as (n & H). exists n. intros m M.
  rewrite C64_buffering_does_not_matter by lia. rewrite (H m M). reflexivity.
Qed.
(** the result of parsing never depends on what the text buffer held before *)
Theorem C64_no_stale_text str dbl n junk old old' text : zlen text < 16384 ->
  parse_buf str dbl false n junk old text = parse_buf str dbl false n junk old' text.
Proof. intros L. rewrite !C64_buffering_does_not_matter by lia. reflexivity. Qed.

(** ** Longer texts *)
Lemma grow_enough k pos buf : 512 <= zlen buf - pos -> grow (S k) pos buf = Some buf.
Proof. intros H. cbn [grow]. replace (zlen buf - pos <? 512) with false by lia. reflexivity. Qed.
Lemma first_refill text : 16384 <= zlen text -> avail text false (@start act) = BUB.
Proof.
  intros L. unfold avail. change (g_lim (@start act) <=? g_pos (@start act)) with true. unfold yyrefill.
  assert (B : zlen (g_buf (@start act)) = 16384) by (unfold start; cbn [g_buf]; apply zlen_repeat).
  change (g_pos (@start act)) with 0. change (g_yy (@start act)) with 0. remember (g_buf (@start act)) as b eqn:Eb. clear Eb.
  assert (G : grow 31 0 b = Some b).
  { apply (grow_enough 30). lia. }
  rewrite G. cbv zeta. rewrite B. change (16384 - 0) with 16384. replace (0 <? zlen text) with true by lia.
  replace (zlen text <? 0 + 16384) with false by lia. reflexivity.
Qed.
Section Ub.
  Context (text : list Z).
  Notation rb := (runb grammar nvars text false).
  Lemma ub_chr n c g : avail text false g = BUB -> rb (S n) (Chr c) g = BUB.
  Proof. intros H. cbn [runb]. rewrite H. reflexivity. Qed.
  Lemma ub_seq n a b g : rb n a g = BUB -> rb (S n) (a >> b) g = BUB.
  Proof. intros H. cbn [runb]. rewrite H. reflexivity. Qed.
  Lemma ub_alt n a b g : rb n a g = BUB -> rb (S n) (a // b) g = BUB.
  Proof. intros H. cbn [runb]. rewrite H. reflexivity. Qed.
  Lemma ub_star n a g : rb n a g = BUB -> rb (S n) (Star a) g = BUB.
  Proof. intros H. cbn [runb]. rewrite H. reflexivity. Qed.
  Lemma ub_rul n r g : rb n (grammar r) (if nvars r =? 0 then g else yydo (BPush (nvars r)) g) = BUB -> rb (S n) (Rul r) g = BUB.
  Proof. intros H. cbn [runb]. cbv zeta. rewrite H. reflexivity. Qed.
  Lemma ub_yydo t g : avail text false g = BUB -> avail text false (@yydo act t g) = BUB.
  Proof.
    unfold avail. cbn [yydo set_ths g_lim g_pos]. destruct (g_lim g <=? g_pos g); [|discriminate].
    unfold yyrefill. cbn [yydo set_ths g_lim g_pos g_buf g_yy g_beg g_end g_ths]. destruct (grow 31 (g_pos g) (g_buf g)); [|reflexivity].
    cbv zeta. destruct (g_yy g <? zlen text); [|discriminate]. destruct (_ <? _ + 1); [reflexivity | discriminate].
  Qed.
End Ub.
Theorem C64_long_text_overflows str dbl n junk old text : (20 <= n)%nat -> 16384 <= zlen text ->
  parse_buf str dbl false n junk old text = Some BOverflow.
Proof.
  intros N L. destruct (Nat.le_exists_sub 20 n N) as (k & -> & _). rewrite Nat.add_comm.
  unfold parse_buf. pose proof (ub_yydo text (BPush 1) _ (first_refill text L)) as F.
  assert (K : runb grammar nvars text false (20 + k) (Rul r_potion) start = BUB).
  { change (20 + k)%nat with (S (S (S (S (S (S (S (S (12 + k)))))))))%nat. apply ub_rul. apply ub_seq. apply ub_rul. apply ub_star. apply ub_alt.
    apply ub_rul. apply ub_alt. apply ub_chr. exact F. }
  rewrite K. reflexivity.
Qed.

(** ** Examples *)
(** a text that goes through the buffer and one that does not fit *)
Example C64_example : zlen [49; 32; 43; 32; 50] < 16384 /\
  parse_buf (fun _ => 1) (fun _ => 2) false 300 (fun _ => SNil) [1; 2; 3] [49; 32; 43; 32; 50]
  = option_map BDone (parse_n (fun _ => 1) (fun _ => 2) 300 (fun _ => SNil) [49; 32; 43; 32; 50]) /\
  exists t, parse_n (fun _ => 1) (fun _ => 2) 300 (fun _ => SNil) [49; 32; 43; 32; 50] = Some (PTree t).
Proof. split; [reflexivity|]. split; [vm_compute; reflexivity|]. vm_compute. eexists. reflexivity. Qed.
Example C64_example_long : parse_buf (fun _ => 1) (fun _ => 2) false 20 (fun _ => SNil) [] (repeat 32 16384) = Some BOverflow.
Proof. apply C64_long_text_overflows; [lia|]. vm_compute. discriminate. Qed.
Print Assumptions C64_buffering_does_not_matter.
Print Assumptions C64_long_text_overflows.
