(** C60: parsing a program's text builds the tree of that program, whatever the white
    space, comments and separators; with C46/C47, running a text gives the value of
    the program it is the text of.
    C61: the parser halts on every input. *)
From Verif Require Import Base Arr GArr WordModel WordProofs NumModel NumProofs SigModel CompileModel VmModel SrcSpec CompileProofs CompileEq Toy PropCompile CompileTotal PropCompile2
  PegModel PegTerm SyntaxModel SyntaxTerm PegProofs TextSpec PrintSpec SyntaxLex SyntaxLit SyntaxCall SyntaxExpr SyntaxMain.
From Coq Require Import ZifyBool Arith.PeanoNat.
Ltac Zify.zify_post_hook ::= Z.div_mod_to_equations.

(** What potion_parse does with a text, whatever the fuel: [junk] is what the freshly
    allocated stack of semantic values holds. *)
Definition parses (str dbl : list Z -> Z) (junk : Z -> sf) (text : list Z) (r : parsed) : Prop :=
  exists n, forall m, (n <= m)%nat -> parse_n str dbl m junk text = Some r.
Definition sig_parses (str dbl : list Z -> Z) (junk : Z -> sf) (text : list Z) (r : sigd) : Prop :=
  exists n, forall m, (n <= m)%nat -> sig_n str dbl m junk text = Some r.

(** ** C61 *)
Theorem C61_parser_halts str dbl junk text : exists r, parses str dbl junk text r.
Proof.
  destruct (rule_halts r_potion text (text, text)) as (n & o & E).
  destruct (parse_n str dbl n junk text) as [r|] eqn:F.
  - exists r, n. intros m L. unfold parse_n in *. rewrite E in F. rewrite (run_le _ _ n m _ _ _ _ L E). exact F.
  - unfold parse_n in F. rewrite E in F. destruct o; discriminate F.
Qed.
Theorem C61_signature_parser_halts str dbl junk text : exists r, sig_parses str dbl junk text r.
Proof.
  destruct (rule_halts r_sig text (text, text)) as (n & o & E).
  destruct (sig_n str dbl n junk text) as [r|] eqn:F.
  - exists r, n. intros m L. unfold sig_n in *. rewrite E in F. rewrite (run_le _ _ n m _ _ _ _ L E). exact F.
  - unfold sig_n in F. rewrite E in F. destruct o; discriminate F.
Qed.
(** and there is only one answer *)
Theorem C61_one_answer str dbl junk text r r' : parses str dbl junk text r -> parses str dbl junk text r' -> r = r'.
Proof. intros (n & A) (m & B). specialize (A (n + m)%nat ltac:(lia)). specialize (B (n + m)%nat ltac:(lia)). congruence. Qed.
(** every call of the parser that is given enough fuel answers the same *)
Theorem C61_any_fuel str dbl junk text n r : parse_n str dbl n junk text = Some r -> parses str dbl junk text r.
Proof.
  intros E. exists n. intros m L. unfold parse_n in *.
  destruct (run grammar nvars n (Rul r_potion) text (text, text)) as [o|] eqn:F; [|discriminate E].
  rewrite (run_le _ _ n m _ _ _ _ L F). exact E.
Qed.

(** ** C60 *)
Lemma ends_eof : ends_stmts [].
Proof. split; exact Logic.I. Qed.
Lemma program_does str dbl es s : names_ok str -> program_text str es s ->
  does str dbl (fr 1 (fun _ => True)) (grammar r_potion) s [] (fun _ st => psource st = SSrc (program es)).
Proof.
  intros NK (g & t & G & B & ->). cbn [grammar].
  destruct (all_good str dbl NK) as (_ & AB & _). destruct (AB es) as (GB & _).
  assert (Y : yields str dbl (Rul r_statements) t [] (tup_of (stms es))).
  { pose proof (GB t [] B ends_eof (joins_nil_r t)) as Y. rewrite app_nil_r in Y. exact Y. }
  eapply skips_does_seq; [apply skips_nl; [exact G|]|].
  { pose proof (body_opener str dbl es t [] B eq_refl) as O. rewrite app_nil_r in O. exact O. }
  eapply does_seq.
  { apply (does_var' str dbl 1 (fun _ => True) (fun v => v (-1) = tup_of (stms es)) (-1) r_statements t [] (tup_of (stms es))); [exact Y | lia | lia|].
    intros v v' _ K _. exact K. }
  eapply skips_does_seq; [apply skips_rul; [reflexivity|]; cbn [grammar]; apply skips_nt|].
  { intros be. exists 1%nat. reflexivity. }
  apply does_act. intros tt b st (_ & _ & K). cbn [do_act]. rewrite K. eexists. split; [reflexivity|].
  cbn [psource set_psource N1]. unfold program, S1. destruct es; reflexivity.
Qed.
Theorem C60_parse_builds_the_tree str dbl junk es text :
  names_ok str -> program_text str es text -> parses str dbl junk text (PTree (program es)).
Proof.
  intros NK T. destruct (program_does str dbl es text NK T (text, text)) as (n & be & l & E & X).
  apply C61_any_fuel with (n := S n). unfold parse_n. cbn [run]. rewrite E.
  change (framed nvars r_potion l) with (TPush 1 :: l ++ [TPop 1]). cbn [exec do_thunk].
  destruct (X (start_pst junk) (set_top (top (start_pst junk) + 1) (start_pst junk))) as (st & Y & Z); [repeat split|].
  rewrite (exec_app_ok _ _ _ _ _ _ Y). cbn [exec do_thunk psource set_top]. rewrite Z. reflexivity.
Qed.
(** a tree is only built when the whole text is matched: nothing is left over *)
Theorem C60_whole_text str dbl junk text t : parses str dbl junk text (PTree t) ->
  exists n be l, run grammar nvars n (Rul r_potion) text (text, text) = Some (Match [] be l).
Proof.
  intros (m & P). specialize (P m ltac:(lia)). unfold parse_n in P.
  destruct (run grammar nvars m (Rul r_potion) text (text, text)) as [[rest be l|]|] eqn:E; try discriminate.
  exists m, be, l. rewrite E. do 2 f_equal. clear P. rename m into n.
  assert (K : forall n a s be rest be' l, run grammar nvars n (a >> Rul r_eof >> Act (ACode (-1))) s be = Some (Match rest be' l) -> rest = []).
  { clear. intros n a s be rest be' l E. destruct n as [|n]; [discriminate|]. cbn [run] in E.
    destruct (run grammar nvars n a s be) as [[s1 b1 t1|]|]; try discriminate.
    destruct (run grammar nvars n (Rul r_eof >> Act (ACode (-1))) s1 b1) as [[s2 b2 t2|]|] eqn:F; try discriminate.
    injection E as <- _ _. destruct n as [|n]; [discriminate|]. cbn [run] in F.
    destruct (run grammar nvars n (Rul r_eof) s1 b1) as [[s3 b3 t3|]|] eqn:F3; try discriminate.
    destruct (run grammar nvars n (Act (ACode (-1))) s3 b3) as [[s4 b4 t4|]|] eqn:F4; try discriminate.
    injection F as <- _ _. destruct n as [|n]; [discriminate|]. cbn [run] in F3, F4. injection F4 as <- _ _.
    destruct n as [|n]; [discriminate|]. cbn [run grammar] in F3. destruct n as [|n]; [discriminate|]. cbn [run] in F3.
    destruct s1; [injection F3 as <- _ _; reflexivity | discriminate]. }
  destruct n as [|n]; [discriminate|]. cbn [run] in E.
  destruct (run grammar nvars n (grammar r_potion) text (text, text)) as [[s1 b1 t1|]|] eqn:F; try discriminate. injection E as -> _ _.
  destruct n as [|n]; [discriminate|]. cbn [grammar] in F. cbn [run] in F.
  destruct (run grammar nvars n nl_ text (text, text)) as [[s2 b2 t2|]|]; try discriminate.
  destruct (run grammar nvars n (Var (-1) r_statements >> Rul r_eof >> Act (ACode (-1))) s2 b2) as [[s3 b3 t3|]|] eqn:F2; try discriminate.
  injection F as -> _ _. exact (K _ _ _ _ _ _ _ F2).
Qed.
(** the concrete syntax is not ambiguous *)
Theorem C60_unambiguous str es es' text :
  names_ok str -> program_text str es text -> program_text str es' text -> program es = program es'.
Proof.
  intros NK A B. pose proof (C60_parse_builds_the_tree str (fun _ => 0) (fun _ => SNil) es text NK A) as X.
  pose proof (C60_parse_builds_the_tree str (fun _ => 0) (fun _ => SNil) es' text NK B) as Y.
  pose proof (C61_one_answer _ _ _ _ _ _ X Y) as K. congruence.
Qed.
(** from a text to its value: parse, compile, run *)
Theorem C60_text_to_value {W} (H : host W) str dbl junk chr0 is_str STR0 es text :
  names_ok str -> program_text str es text ->
  program_ok chr0 is_str es -> few_all es = true ->
  ((forall w v, h_isref H w v = false) \/
   (forall l ps b, In (l, (ps, b)) (fns_all es) -> forall x, In x (sets_all b) -> memb x ps = true)) ->
  exists tree m t, parses str dbl junk text (PTree tree)
    /\ (exists K, forall k, (K <= k)%nat -> source_compile chr0 k tree = Ok (m, t))
    /\ forall d self w w' v, fits (t ++ [m]) d -> truth self = true -> means H es d self w w' v ->
       returns H (t ++ [m]) is_str STR0 (zlen t) self w w' v.
Proof.
  intros NK T PO FW HL. destruct (C47_compile_and_run H chr0 is_str STR0 es PO FW HL) as (m & t & A & B).
  exists (program es), m, t. split; [apply C60_parse_builds_the_tree; assumption|]. auto.
Qed.
(** whatever can be written is read back *)
Theorem C60_print_then_parse str spell dbl junk es :
  names_ok str -> writable_all str spell es = true -> parses str dbl junk (print_all spell es) (PTree (program es)).
Proof. intros NK W. apply C60_parse_builds_the_tree; [exact NK|]. apply print_program, W. Qed.

(** ** Concrete cases *)
(** a string table, and its inverse *)
Definition kws : list (list Z * Z) :=
  [(t_if, PN_if); (t_elsif, PN_elsif); (TextSpec.t_else, PN_else); (t_while, PN_while); (t_loop, PN_loop); (t_return, PN_return);
   (t_break, PN_break); (t_continue, PN_continue); (t_self, PN_self);
   ([120], x); ([121], y); ([102], f); ([103], g); ([105], i); ([116; 111; 63], nm 5)].
Definition toy_table (l : list Z) : Z :=
  match find (fun p => list_eqb (fst p) l) kws with
  | Some p => snd p
  | None => nm (2000 + (fold_left (fun a c => a * 256 + c) l 0) mod 100000)
  end.
Definition toy_spell (v : Z) : list Z :=
  match find (fun p => snd p =? v) kws with Some p => fst p | None => [] end.
Lemma toy_names : names_ok toy_table.
Proof.
  constructor; try (vm_compute; reflexivity). intros l. unfold toy_table.
  destruct (find _ kws) as [p|] eqn:E.
  - apply find_some in E. destruct E as [E _]. unfold kws in E. cbn [In] in E.
    repeat (destruct E as [<- | E]; [vm_compute; discriminate|]). contradiction.
  - unfold nm, PN_NIL. lia.
Qed.
(** the characters of the text
      # factorial
      f = (x): if (x == 0): 1. else: x * f(x - 1)..
      f(5)                                                                         *)
Definition fact_text : list Z :=
  [35;32;102;97;99;116;111;114;105;97;108;10;
   102;32;61;32;40;120;41;58;32;105;102;32;40;120;32;61;61;32;48;41;58;32;49;46;32;101;108;115;101;58;32;
   120;32;42;32;102;40;120;32;45;32;49;41;46;46;10; 102;40;53;41;10].
Ltac cut k := match goal with |- _ ?s => exists (firstn k s), (skipn k s); cbn [firstn skipn];
  split; [reflexivity|]; split; [|split; [|reflexivity]] end.
Ltac sp0 := exists []; split; [reflexivity|reflexivity].
Ltac sp1 := exists [32]; split; [reflexivity|reflexivity].
Ltac nl0 := exists []; split; [apply lines_nil|reflexivity].
Ltac nl1 := exists [32]; split; [repeat constructor|reflexivity].
Ltac op1 := exists [32]; split; [repeat constructor|split; [discriminate|reflexivity]].
Ltac nm_ w := exists w; split; [left; reflexivity|]; split; [reflexivity|]; first [sp0 | sp1].
Ltac int_ n := exists (sprintf_ld n); split; [first [sp0 | sp1]|]; right; right; right; left; exists n; split; [unfold two62; lia|]; split; reflexivity.
Lemma fact_is_text : program_text toy_table ex_fact fact_text.
Proof.
  exists (firstn 12 fact_text), (skipn 12 fact_text). split; [|split; [|reflexivity]].
  - change (firstn 12 fact_text) with (35 :: [32;102;97;99;116;111;114;105;97;108] ++ 10 :: []). apply lines_comment; [reflexivity | apply lines_nil].
  - cbn [skipn fact_text]. unfold ex_fact. cbn [L body text text_clauses].
    cut 45%nat.
    { split; [cbn; lia|]. cut 2%nat; [nm_ [102]|]. cut 2%nat; [nl1|]. split; [discriminate|].
      cut 3%nat.
      { cut 1%nat; [nl0|]. cut 1%nat; [|sp0]. cbn [params]. cut 1%nat; [nm_ [120] | left; reflexivity]. }
      cut 2%nat; [nl1|]. cut 35%nat; [|sp0].
      cut 35%nat; [|left; reflexivity]. cut 3%nat; [sp1|].
      cut 8%nat.
      { cut 1%nat; [nl0|]. cut 6%nat; [|sp0]. cut 6%nat; [|left; reflexivity]. split; [split; [reflexivity | cbn; lia]|].
        cut 2%nat; [nm_ [120]|]. cut 3%nat; [op1|]. int_ 0. }
      cut 5%nat.
      { cut 2%nat; [nl1|]. cut 1%nat; [|sp1]. cut 1%nat; [|left; reflexivity]. int_ 1. }
      cut 4%nat; [sp0|]. cut 2%nat; [nl1|]. cut 12%nat; [|sp0]. cut 12%nat; [|left; reflexivity].
      split; [split; [reflexivity | cbn; lia]|]. cut 2%nat; [nm_ [120]|]. cut 2%nat; [op1|].
      cut 1%nat; [nm_ [102]|]. cut 1%nat; [nl0|]. cut 5%nat; [|sp0]. cut 5%nat; [|left; reflexivity].
      split; [split; [reflexivity | cbn; lia]|]. cut 2%nat; [nm_ [120]|]. cut 2%nat; [op1|]. int_ 1. }
    cut 1%nat; [exists []; split; [constructor | right; left; reflexivity]|].
    cut 4%nat; [|right; exists []; split; [constructor | right; left; reflexivity]].
    cut 1%nat; [nm_ [102]|]. cut 1%nat; [nl0|]. cut 1%nat; [|sp0]. cut 1%nat; [|left; reflexivity]. int_ 5.
Qed.
(** parsing, compiling and running that text returns 120 *)
Example fact_text_runs dbl junk : exists tree t m w', parses toy_table dbl junk fact_text (PTree tree)
  /\ source_compile lower 100 tree = Ok (m, t)
  /\ returns (toy (sigs_of (compile1 ex_fact))) (t ++ [m]) toy_str 0 (zlen t) (PN_NUM 7) [] w' (PN_NUM 120).
Proof.
  destruct fact_by_theorem as (t & m & w' & A & B). exists (program ex_fact), t, m, w'.
  split; [apply C60_parse_builds_the_tree; [exact toy_names | exact fact_is_text]|]. auto.
Qed.
(** the printer writes it, and its text is read back *)
Example counter_writable : writable_all toy_table toy_spell ex_counter = true /\ writable_all toy_table toy_spell ex_fact = true.
Proof. split; vm_compute; reflexivity. Qed.
Example fact_parse : parse_n toy_table (fun _ => 0) 400 (fun _ => SNil) (print_all toy_spell ex_fact) = Some (PTree (program ex_fact)).
Proof. vm_compute. reflexivity. Qed.

(** licks: x = 3, [f, g 4, i 5 (x + 1, 2), y (x)] is written by the printer and read back; so
    is, from other texts, a lick whose attributes come before its inner value, and one whose
    inner value is a list of licks *)
Example licks_writable : writable_all toy_table toy_spell ex_licks = true.
Proof. vm_compute. reflexivity. Qed.
Example licks_parse :
  parse_n toy_table (fun _ => 0) 400 (fun _ => SNil) [120;32;61;32;51;10;91;102;44;32;103;32;52;10;32;105;32;40;120;32;43;32;49;44;32;50;41;32;53;44;121;32;40;32;120;32;41;44;93] = Some (PTree (program ex_licks))
  /\ parse_n toy_table (fun _ => 0) 400 (fun _ => SNil) [91;102;32;91;103;44;32;105;32;49;93;44;32;121;32;40;41;32;50;93]
     = Some (PTree (program (L [EList (L [ELick f (L [EList (L [ELick g Nil; ELick i (L [N 1])])]); ELick y (L [N 2; EList Nil])])]))).
Proof. split; vm_compute; reflexivity. Qed.
Example licks_text : program_text toy_table ex_licks (print_all toy_spell ex_licks).
Proof. apply print_program. exact licks_writable. Qed.

(** x[ 12] ,x[y ,] f, x['g'] + 1 on two lines: the bracket follows the name at once *)
Definition ex_at : exps :=
  L [EAt false x (AInt 12); ESend0 (EAt false x (AVar y)) f; EBin PLUS (EAt true x (AKey g)) (N 1)].
Example at_writable : writable_all toy_table toy_spell ex_at = true.
Proof. vm_compute. reflexivity. Qed.
Example at_parse :
  parse_n toy_table (fun _ => 0) 400 (fun _ => SNil) [120;91;32;49;50;93;32;44;120;91;121;32;44;93;32;102;10;120;91;39;103;39;10;93;32;43;32;49] = Some (PTree (program ex_at)).
Proof. vm_compute. reflexivity. Qed.
Example at_text : program_text toy_table ex_at (print_all toy_spell ex_at).
Proof. apply print_program. exact at_writable. Qed.
(** with white space before the bracket it is a variable with a list as its arguments *)
Example at_space : parse_n toy_table (fun _ => 0) 400 (fun _ => SNil) [120;32;91;49;93]
  <> Some (PTree (program (L [EAt false x (AInt 1)]))).
Proof. vm_compute. discriminate. Qed.

(** ** What is outside the texts above, and what the parser does with it (facts about
    syntax.y a user may not expect) *)
Definition gp (l : list Z) : option parsed := parse_n toy_table (fun _ => 0) 400 (fun _ => SNil) l.
Definition one (t : src) : option parsed := Some (PTree (S1 CODE (STup [t]))).
Definition ex (l : list src) : src := S1 EXPR (STup l).
Definition vn (n : Z) : src := S1 VALUE (SVal (PN_NUM n)).
(** x-1 sends x with the argument -1; only x - 1 subtracts *)
Example note_minus : gp [120; 45; 49] = one (ex [MsgOf x (SSrc (S1 VALUE (SVal (u64 (PN_NUM (-1)))))) SNil])
  /\ gp [120; 32; 45; 32; 49] = one (Src MINUS (SSrc (ex [MsgOf x SNil SNil])) (SSrc (ex [vn 1])) SNil).
Proof. split; vm_compute; reflexivity. Qed.
(** 2 ** 3 ** 2 is (2 ** 3) ** 2 *)
Example note_pow : gp [50; 32; 42; 42; 32; 51; 32; 42; 42; 32; 50]
  = one (Src POW (SSrc (Src POW (SSrc (ex [vn 2])) (SSrc (ex [vn 3])) SNil)) (SSrc (ex [vn 2])) SNil).
Proof. vm_compute. reflexivity. Qed.
(** not x == y is (not x) == y *)
Example note_not : gp [110;111;116;32;120;32;61;61;32;121]
  = one (Src EQ (SSrc (ex [Src NOT (SSrc (ex [MsgOf x SNil SNil])) SNil SNil])) (SSrc (ex [MsgOf y SNil SNil])) SNil).
Proof. vm_compute. reflexivity. Qed.
(** external is read as extern al *)
Example note_extern : gp [101;120;116;101;114;110;97;108]
  = one (ex [Src MSG (SVal PN_extern) (STup [MsgOf (toy_table [97; 108]) SNil SNil]) SNil]).
Proof. vm_compute. reflexivity. Qed.
(** the integer literal 2^62 is read as -2^62, and one that does not fit in 64 bits has
    undefined behaviour *)
Example note_big : gp (sprintf_ld 4611686018427387904) = one (ex [S1 VALUE (SVal (u64 (PN_NUM (- 4611686018427387904))))])
  /\ gp (sprintf_ld 9999999999999999999) = Some PUndef.
Proof. split; vm_compute; reflexivity. Qed.
(** a block without parameters takes whatever was parsed last as its signature:
    in 1, : 2. it is the literal 1 *)
Example note_stale : gp [49; 44; 32; 58; 32; 50; 46]
  = Some (PTree (S1 CODE (STup [ex [vn 1]; ex [Src PROTO (SVal (PN_NUM 1)) (BlockOf [ex [vn 2]]) SNil]]))).
Proof. vm_compute. reflexivity. Qed.
(** [4] holds a lick whose name is the literal's syntax tree, not a string
    (a value the model of the compiler does not have: it stops there); [f x] one whose
    inner value is the string 'x', not the variable; [f (1) x] the same with attributes *)
Example note_lick : gp [91;52;93] = one (ex [S1 LIST (STup [Src LICK (SSrc (vn 4)) SNil SNil])])
  /\ gp [91;102;32;120;93] = one (ex [S1 LIST (STup [Src LICK (SVal f) (SSrc (S1 VALUE (SVal x))) SNil])])
  /\ source_compile lower 100 (S1 CODE (STup [ex [S1 LIST (STup [Src LICK (SSrc (vn 4)) SNil SNil])]])) = UB.
Proof. repeat split; vm_compute; reflexivity. Qed.
Print Assumptions C60_text_to_value.
Print Assumptions C61_parser_halts.
