(** Properties C78 (the command line) and C79 (running and compiling a file). *)
From Coq Require Import ZifyBool Ascii String.
From Verif Require Import Base Arr WordModel FileModel CmdModel.
Ltac Zify.zify_post_hook ::= Z.div_mod_to_equations.
Local Open Scope string_scope.
Local Open Scope list_scope.
Local Open Scope Z_scope.

(** ** Specification: options, how they are written, what they mean *)
Inductive opt :=
| Inspect (long : bool) | Verbose (long : bool) | Path (dir : list Z)
| Check | CompileTo (k : list Z) | Compile (long : bool) | Bytecode (long : bool) | X86 (long : bool)
| Debug (long : bool) | DebugArgs (args : list Z) | DebugModule (m : list Z)
| Module (m : list Z) | Code (t : list Z) | Unknown (a : list Z).
Definition pick (long : bool) (l s : string) : list (list Z) := [lit (if long then l else s)].
Definition words (o : opt) : list (list Z) :=
  match o with
  | Inspect b => pick b "--inspect" "-I" | Verbose b => pick b "--verbose" "-V"
  | Path d => [lit "-L"; d]
  | Check => [lit "--check"] | CompileTo k => [lit "--compile=" ++ k] | Compile b => pick b "--compile" "-c"
  | Bytecode b => pick b "--bytecode" "-B" | X86 b => pick b "--x86" "-X"
  | Debug b => pick b "--debug" "-d" | DebugArgs a => [lit "-d=" ++ a] | DebugModule m => [lit "-d" ++ m]
  | Module m => [lit "-M" ++ m] | Code t => [lit "-e" ++ t] | Unknown a => [a]
  end.
Definition all_known : list (list Z) := map lit
  ["--"; "-I"; "--inspect"; "-L"; "-V"; "--verbose"; "-v"; "--version"; "-h"; "--help"; "-s"; "--stats"; "--check";
   "--compile"; "-c"; "-B"; "--bytecode"; "-X"; "--x86"; "--debug"; "-d"; "--debug="].
Definition well (o : opt) : Prop :=
  match o with
  | DebugModule m => exists c m', m = c :: m' /\ c <> 61
  | Code t => t <> []
  | Unknown a => ~ In a all_known /\ (forall k, a <> lit "--compile=" ++ k) /\
                 exists r, a = 45 :: r /\ forall c r', r = c :: r' -> c <> 100 /\ c <> 77 /\ c <> 101
  | _ => True
  end.
(** the last of the options that say something *)
Fixpoint last_of {A} (f : opt -> option A) (os : list opt) (dflt : A) : A :=
  match os with [] => dflt | o :: os => last_of f os (match f o with Some x => x | None => dflt end) end.
Definition says_mode (o : opt) : option Z :=
  match o with
  | Check => Some EXEC_CHECK | CompileTo _ | Compile _ => Some EXEC_COMPILE | Bytecode _ => Some EXEC_VM | X86 _ => Some EXEC_JIT
  | Debug _ | DebugArgs _ | DebugModule _ => Some EXEC_DEBUG | _ => None
  end.
Definition says_target (o : opt) : option (option (list Z)) :=
  match o with CompileTo k => Some (Some k) | Compile _ => Some None | _ => None end.
(** the code that loads a module: load "prefix/name", then name(args) *)
Definition loading (prefix name args : list Z) : list Z :=
  lit "load " ++ [34] ++ prefix ++ name ++ [34; 10] ++ name ++ lit "(" ++ args ++ lit ")" ++ [10].
Fixpoint before_eq (l : list Z) : list Z := match l with [] => [] | c :: l => if c =? 61 then [] else c :: before_eq l end.
Fixpoint after_eq (l : list Z) : list Z := match l with [] => [] | c :: l => if c =? 61 then l else after_eq l end.
Definition says_module (o : opt) : option (option (list Z)) :=
  match o with
  | Debug _ => Some (Some (loading [] (lit "debug") []))
  | DebugArgs a => Some (Some (loading [] (lit "debug") a))
  | DebugModule m => Some (Some (loading (lit "debug/") (before_eq m) (after_eq m)))
  | Module m => Some (Some (loading [] (before_eq m) (after_eq m)))
  | _ => None
  end.
(** the code given with -e is put behind the module named last before it *)
Fixpoint code_of (os : list opt) (md : option (list Z)) (dflt : option (list Z)) : option (list Z) :=
  match os with
  | [] => dflt
  | o :: os => code_of os (match says_module o with Some x => x | None => md end)
                 (match o with Code t => Some (match md with Some m => m ++ t | None => t end) | _ => dflt end)
  end.
Definition inspects (os : list opt) : bool := existsb (fun o => match o with Inspect _ => true | _ => false end) os.
Definition verboses (os : list opt) : bool := existsb (fun o => match o with Verbose _ => true | _ => false end) os.
Definition paths_of (os : list opt) : list (list Z) := flat_map (fun o => match o with Path d => [d] | _ => [] end) os.
Definition unknowns (os : list opt) : list (list Z) := flat_map (fun o => match o with Unknown a => [a] | _ => [] end) os.
Definition bits (os : list opt) : Z := (if inspects os then 64 else 0) + (if verboses os then 128 else 0).
Definition line (os : list opt) : list (list Z) := flat_map words os.
Definition default (jit : bool) : Z := if jit then EXEC_JIT else EXEC_VM.
(** what the options amount to *)
Definition means (jit : bool) (os : list opt) : cmd :=
  mkCmd (bits os) (last_of says_mode os (default jit)) (last_of says_target os None) (code_of os None None)
    (last_of says_module os None) (paths_of os) (unknowns os).
Definition not_an_option (f : list Z) : Prop := forall r, f <> 45 :: r.

(** ** Proofs *)
Lemma same_refl a : same_name a a = true.
Proof. unfold same_name. destruct (list_eq_dec Z.eq_dec a a); [reflexivity|contradiction]. Qed.
Lemma same_iff a b : same_name a b = true <-> a = b.
Proof. unfold same_name. destruct (list_eq_dec Z.eq_dec a b); split; auto; discriminate. Qed.
Lemma split_eq l : split_env l = if existsb (Z.eqb 61) l then Some (before_eq l, after_eq l) else None.
Proof.
  induction l as [|c l IH]; [reflexivity|]. cbn [split_env existsb before_eq after_eq]. rewrite (Z.eqb_sym 61 c). destruct (c =? 61); [reflexivity|]. cbn [orb].
  rewrite IH. destruct (existsb _ l); reflexivity.
Qed.
Lemma no_eq l : existsb (Z.eqb 61) l = false -> before_eq l = l /\ after_eq l = [].
Proof.
  induction l as [|c l IH]; [auto|]. cbn [existsb before_eq after_eq]. rewrite (Z.eqb_sym 61 c). destruct (c =? 61); [discriminate|]. cbn [orb]. intros H.
  destruct (IH H) as [-> ->]. auto.
Qed.
Lemma addmodule_none m : addmodule None m = loading [] (before_eq m) (after_eq m).
Proof.
  unfold addmodule, loading. rewrite split_eq. destruct (existsb (Z.eqb 61) m) eqn:E; [reflexivity|]. destruct (no_eq _ E) as [-> ->]. reflexivity.
Qed.
Lemma addmodule_some m : addmodule (Some (lit "debug")) m = loading (lit "debug/") (before_eq m) (after_eq m).
Proof.
  unfold addmodule, loading. rewrite split_eq. destruct (existsb (Z.eqb 61) m) eqn:E; [reflexivity|]. destruct (no_eq _ E) as [-> ->]. reflexivity.
Qed.
(** the state after one option *)
Definition after (o : opt) (c : cmd) : cmd :=
  mkCmd (Z.lor (c_flags c) (match o with Inspect _ => 64 | Verbose _ => 128 | _ => 0 end))
    (match says_mode o with Some x => x | None => c_exec c end) (match says_target o with Some x => x | None => c_compile c end)
    (match o with Code t => Some (cat (c_add c) t) | _ => c_buf c end)
    (match says_module o with Some x => x | None => c_add c end)
    (c_paths c ++ match o with Path d => [d] | _ => [] end) (c_unknown c ++ match o with Unknown a => [a] | _ => [] end).
Lemma is_false a s : a <> lit s -> is a s = false.
Proof. intros H. unfold is, same_name. destruct (list_eq_dec Z.eq_dec a (lit s)); [contradiction|reflexivity]. Qed.
Lemma take_app_len (l k : list Z) : ztake (zlen l) (l ++ k) = l.
Proof. unfold ztake, zlen. rewrite Nat2Z.id. rewrite firstn_app, Nat.sub_diag, firstn_all. cbn. apply app_nil_r. Qed.
Lemma drop_app_len (l k : list Z) : zdrop (zlen l) (l ++ k) = k.
Proof. unfold zdrop, zlen. rewrite Nat2Z.id. rewrite skipn_app, Nat.sub_diag, skipn_all. reflexivity. Qed.
Lemma take_drop10 (a : list Z) : ztake 10 a = lit "--compile=" -> a = lit "--compile=" ++ zdrop 10 a.
Proof. intros E. rewrite <- E. unfold ztake, zdrop. symmetry. apply firstn_skipn. Qed.
Lemma nocomp a : (forall k, a <> lit "--compile=" ++ k) -> same_name (ztake 10 a) (lit "--compile=") = false.
Proof.
  intros H. unfold same_name. destruct (list_eq_dec Z.eq_dec _ _) as [E|]; [|reflexivity]. exfalso. apply (H (zdrop 10 a)). apply take_drop10. exact E.
Qed.
Ltac isf := repeat match goal with |- context [is ?a ?s] => rewrite (is_false a s) by
    first [discriminate | let E := fresh in intros E; vm_compute in E; discriminate E | let E := fresh in intros E; cbn in E; congruence] end; cbn [orb].
Lemma one_option o c rest : well o -> opts c (words o ++ rest) = opts (after o c) rest.
Proof.
  destruct c as [fl e k bf ad ps un]. intros H.
  destruct o as [b|b|d| |k0|b|b|b|b|a|m|m|t|a]; unfold after; cbn [says_mode says_target says_module c_flags c_exec c_compile c_buf c_add c_paths c_unknown words app]; rewrite ?app_nil_r, ?Z.lor_0_r.
  - destruct b; reflexivity.
  - destruct b; reflexivity.
  - reflexivity.
  - reflexivity.
  - cbn [opts]. unfold is. 
    assert (Q : forall s, (forall k, lit s <> lit "--compile=" ++ k) -> same_name (lit "--compile=" ++ k0) (lit s) = false).
    { intros s Hs. unfold same_name. destruct (list_eq_dec Z.eq_dec _ _) as [E|]; [|reflexivity]. exfalso. exact (Hs k0 (eq_sym E)). }
    rewrite !Q by (intros k1 E; vm_compute in E; discriminate E). cbn [orb].
    change 10 with (zlen (lit "--compile=")). rewrite take_app_len, drop_app_len, same_refl. reflexivity.
  - destruct b; reflexivity.
  - destruct b; reflexivity.
  - destruct b; reflexivity.
  - destruct b; reflexivity.
  - change (lit "-d=" ++ a) with (45 :: 100 :: 61 :: a). cbn [opts]. isf.
    rewrite nocomp by (intros k1 E; vm_compute in E; discriminate E).
    rewrite addmodule_none. reflexivity.
  - destruct H as (x & m' & -> & Hx). change (lit "-d" ++ x :: m') with (45 :: 100 :: x :: m'). cbn [opts]. isf.
    rewrite nocomp by (intros k1 E; vm_compute in E; discriminate E).
    rewrite <- addmodule_some. destruct x as [|p|p]; try reflexivity. do 7 (try (destruct p as [p|p|]; try reflexivity)). exfalso. apply Hx. reflexivity.
  - change (lit "-M" ++ m) with (45 :: 77 :: m). cbn [opts]. isf.
    rewrite nocomp by (intros k1 E; vm_compute in E; discriminate E). rewrite addmodule_none. reflexivity.
  - change (lit "-e" ++ t) with (45 :: 101 :: t). cbn [opts]. isf.
    rewrite nocomp by (intros k1 E; vm_compute in E; discriminate E). cbn in H. destruct t as [|x t]; [contradiction|]. reflexivity.
  - destruct H as (H1 & H2 & r & -> & H3). cbn [opts].
    assert (Q : forall s, In (lit s) all_known -> is (45 :: r) s = false) by (intros s Hs; apply is_false; intros E; apply H1; rewrite E; exact Hs).
    rewrite !Q by (unfold all_known; apply in_map; cbn; tauto). cbn [orb]. rewrite nocomp by exact H2.
    destruct r as [|x r]; [reflexivity|]. destruct (H3 x r eq_refl) as (N1 & N2 & N3).
    destruct x as [|p|p]; try reflexivity. do 7 (try (destruct p as [p|p|]; try reflexivity)); exfalso; lia.
Qed.
Lemma options : forall os c rest, Forall well os -> opts c (line os ++ rest) = opts (fold_left (fun c o => after o c) os c) rest.
Proof.
  induction os as [|o os IH]; intros c rest H; [reflexivity|]. inversion H; subst. unfold line. cbn [flat_map fold_left]. rewrite <- app_assoc, one_option by assumption. apply IH. assumption.
Qed.
Lemma fold_means : forall os fl e k bf ad ps un, fold_left (fun c o => after o c) os (mkCmd fl e k bf ad ps un) =
  mkCmd (Z.lor fl (bits os)) (last_of says_mode os e) (last_of says_target os k) (code_of os ad bf) (last_of says_module os ad) (ps ++ paths_of os) (un ++ unknowns os).
Proof.
  induction os as [|o os IH]; intros fl e k bf ad ps un.
  - cbn. rewrite Z.lor_0_r, !app_nil_r. reflexivity.
  - cbn [fold_left]. etransitivity; [unfold after at 2; cbn [c_flags c_exec c_compile c_buf c_add c_paths c_unknown]; apply IH|]. cbn [last_of code_of].
    unfold paths_of, unknowns. cbn [flat_map]. rewrite <- !app_assoc. f_equal.
    rewrite <- Z.lor_assoc. f_equal. unfold bits, inspects, verboses. cbn [existsb].
    destruct o; cbn [orb]; destruct (existsb _ os), (existsb _ os); reflexivity.
Qed.
Lemma line_means jit os rest : Forall well os ->
  opts (mkCmd 0 (default jit) None None None [] []) (line os ++ rest) = opts (means jit os) rest.
Proof. intros H. rewrite options by exact H. rewrite fold_means. reflexivity. Qed.
Lemma stops c f l : not_an_option f -> opts c (f :: l) = Stop c (f :: l).
Proof.
  intros H. cbn [opts].
  assert (Q : forall s, (exists r, lit s = 45 :: r) -> is f s = false) by (intros s (r & Hs); apply is_false; rewrite Hs; apply H).
  rewrite !Q by (eexists; reflexivity). cbn [orb]. rewrite nocomp by (intros k; apply H).
  destruct f as [|x f]; [reflexivity|]. destruct x as [|p|p]; try reflexivity. do 6 (try (destruct p as [p|p|]; try reflexivity)). exfalso. exact (H f eq_refl).
Qed.

(** ** C78 *)
(** Options, then a file: the file is run, in the mode named last, with the modules and paths of the options;
    its argv is the file name and the arguments after it, whatever they are. *)
Theorem C78_script : forall jit os f args, Forall well os -> code_of os None None = None -> not_an_option f ->
  main jit (line os ++ f :: args) = Runs (means jit os) (bits os + last_of says_mode os (default jit)) (f :: args) (File f (last_of says_module os None)).
Proof.
  intros jit os f args H1 H2 H3. unfold main. change (if jit then EXEC_JIT else EXEC_VM) with (default jit). rewrite line_means, stops by assumption.
  cbv beta iota zeta; change (c_buf (means jit os)) with (code_of os None None). rewrite H2. reflexivity.
Qed.
(** "--" ends the options: what comes next is the file, even if it looks like an option *)
Theorem C78_dashes : forall jit os f args, Forall well os -> code_of os None None = None ->
  main jit (line os ++ lit "--" :: f :: args) = Runs (means jit os) (bits os + last_of says_mode os (default jit)) (f :: args) (File f (last_of says_module os None)).
Proof.
  intros jit os f args H1 H2. unfold main. change (if jit then EXEC_JIT else EXEC_VM) with (default jit). rewrite line_means by assumption.
  change (opts (means jit os) (lit "--" :: f :: args)) with (Stop (means jit os) (f :: args)).
  cbv beta iota zeta; change (c_buf (means jit os)) with (code_of os None None). rewrite H2. reflexivity.
Qed.
(** Code attached to -e: it is run behind the module named before it; argv is "-e" and the arguments that are not options *)
Theorem C78_code : forall jit os t args, Forall well os -> code_of os None None = Some t -> match args with [] => True | f :: _ => not_an_option f end ->
  main jit (line os ++ args) = Runs (means jit os) (bits os + last_of says_mode os (default jit)) (lit "-e" :: args) (Text t).
Proof.
  intros jit os t args H1 H2 H3. unfold main. change (if jit then EXEC_JIT else EXEC_VM) with (default jit). rewrite line_means by assumption.
  destruct args as [|f args]; [cbn [opts]|rewrite stops by exact H3]; cbv beta iota zeta; change (c_buf (means jit os)) with (code_of os None None); rewrite H2; reflexivity.
Qed.
(** Code in the argument after -e: it is run, but it stays in argv (and nothing after it is an option) *)
Theorem C78_code_next : forall jit os code args, Forall well os -> not_an_option code ->
  exists c, main jit (line os ++ lit "-e" :: code :: args) =
    Runs c (bits os + last_of says_mode os (default jit)) (lit "-e" :: code :: args)
      (Text (match last_of says_module os None with Some m => m ++ code | None => code end)).
Proof.
  intros jit os code args H1 H2. unfold main. change (if jit then EXEC_JIT else EXEC_VM) with (default jit). rewrite line_means by assumption.
  change (opts (means jit os) (lit "-e" :: code :: args)) with (opts (set_buf (cat (c_add (means jit os)) code) (means jit os)) (code :: args)).
  rewrite stops by exact H2. eexists. cbn [c_buf c_flags c_exec set_buf]. reflexivity.
Qed.
(** no file: the prompt, unless the mode is the bytecode VM or -I is given *)
Theorem C78_no_file : forall jit os, Forall well os -> code_of os None None = None ->
  main jit (line os) = if (last_of says_mode os (default jit) =? EXEC_VM) || inspects os then NoFile (means jit os)
                       else Prompt (means jit os) (bits os + last_of says_mode os (default jit)).
Proof.
  intros jit os H1 H2. unfold main. change (if jit then EXEC_JIT else EXEC_VM) with (default jit).
  rewrite <- (app_nil_r (line os)), line_means by assumption. cbn [opts]. cbv beta iota zeta; change (c_buf (means jit os)) with (code_of os None None). rewrite H2.
  change (c_flags (means jit os)) with (bits os). change (c_exec (means jit os)) with (last_of says_mode os (default jit)).
  replace (Z.land (bits os + last_of says_mode os (default jit)) DEBUG_INSPECT =? 0) with (negb (inspects os)); [rewrite negb_involutive; reflexivity|].
  assert (M : 0 <= last_of says_mode os (default jit) <= 4).
  { assert (G : forall os d, 0 <= d <= 4 -> 0 <= last_of says_mode os d <= 4).
    { clear. induction os as [|o os IH]; intros d Hd; [exact Hd|]. cbn [last_of]. apply IH. destruct o; cbn; unfold EXEC_CHECK, EXEC_COMPILE, EXEC_VM, EXEC_JIT, EXEC_DEBUG; lia. }
    apply G. destruct jit; cbv; split; discriminate. }
  unfold bits. assert (M5 : last_of says_mode os (default jit) = 0 \/ last_of says_mode os (default jit) = 1 \/ last_of says_mode os (default jit) = 2 \/ last_of says_mode os (default jit) = 3 \/ last_of says_mode os (default jit) = 4) by lia.
  destruct (inspects os), (verboses os); destruct M5 as [-> |[-> |[-> |[-> | -> ]]]]; reflexivity.
Qed.
(** For every argument vector: argv is the file, or "-e", and the last arguments, none lost, none added, none moved;
    the mode and the debugging bits in the flags are those the options chose. *)
Definition fine (c : cmd) : Prop := 0 <= c_exec c <= 4 /\ In (c_flags c) [0; 64; 128; 192].
Lemma opts_all : forall n l c c' rest, (length l <= n)%nat -> fine c -> opts c l = Stop c' rest -> fine c' /\ exists pre, l = pre ++ rest.
Proof.
  induction n as [|n IH]; intros l c c' rest Ln Hc E.
  { destruct l; [|cbn in Ln; lia]. injection E as <- <-. split; [exact Hc|exists []; reflexivity]. }
  destruct l as [|a l]; [injection E as <- <-; split; [exact Hc|exists []; reflexivity]|]. cbn [length] in Ln.
  assert (K : forall c1, fine c1 -> opts c1 l = Stop c' rest -> fine c' /\ exists pre, a :: l = pre ++ rest).
  { intros c1 H1 E1. destruct (IH l c1 c' rest ltac:(lia) H1 E1) as (H2 & pre & ->). split; [exact H2|]. exists (a :: pre). reflexivity. }
  assert (FF : forall b, In b [64; 128] -> fine (set_flag b c)).
  { intros b Hb. destruct Hc as [H1 H2]. split; [exact H1|]. cbn [c_flags set_flag]. cbn in H2, Hb.
    destruct Hb as [<-|[<-|[]]]; destruct H2 as [<-|[<-|[<-|[<-|[]]]]]; cbn; tauto. }
  assert (FE : forall e k, 0 <= e <= 4 -> fine (set_exec e k c)) by (intros e k He; split; [exact He|apply Hc]).
  assert (FM : forall m e, 0 <= e <= 4 -> fine (set_mod m e c)) by (intros m e He; split; [exact He|apply Hc]).
  assert (FB : forall t, fine (set_buf t c)) by (intros t; exact Hc).
  assert (FC : fine (complain a c)) by exact Hc.
  cbn [opts] in E.
  repeat match type of E with (if ?b then _ else _) = _ => destruct b end; try discriminate E;
    try (injection E as <- <-; split; [exact Hc|exists [a]; reflexivity]);
    try (eapply K; [|exact E]; first [apply FF; cbn; tauto | apply FE; cbv; split; discriminate | apply FM; cbv; split; discriminate]).
  - destruct l as [|p l]; [discriminate E|]. cbn [length] in Ln. destruct (IH l (add_path p c) c' rest ltac:(lia)) as (H2 & pre & ->); [exact Hc|exact E|]. split; [exact H2|]. exists (a :: p :: pre). reflexivity.
  - destruct a as [|x a]; [injection E as <- <-; split; [exact Hc|exists []; reflexivity]|].
    assert (D : opts (complain (x :: a) c) l = Stop c' rest -> fine c' /\ exists pre, (x :: a) :: l = pre ++ rest) by (intros Q; eapply K; [exact FC|exact Q]).
    assert (D' : Stop c ((x :: a) :: l) = Stop c' rest -> fine c' /\ exists pre, (x :: a) :: l = pre ++ rest) by (intros Q; injection Q as <- <-; split; [exact Hc|exists []; reflexivity]).
    destruct (Z.eq_dec x 45) as [-> |N45].
    2: { apply D'. destruct x as [|p|p]; try exact E. do 6 (try (destruct p as [p|p|]; try exact E)). exfalso; apply N45; reflexivity. }
    destruct a as [|y a]; [apply D; exact E|].
    destruct (Z.eq_dec y 100) as [-> |N1].
    { assert (Q : exists m, opts (set_mod m EXEC_DEBUG c) l = Stop c' rest).
      { destruct a as [|z a]; [eauto|]. destruct z as [|p|p]; eauto. do 6 (try (destruct p as [p|p|]; eauto)). }
      destruct Q as [m Q]. eapply K; [|exact Q]. apply FM. cbv. split; discriminate. }
    destruct (Z.eq_dec y 77) as [-> |N2]; [eapply K; [|exact E]; apply FM; apply Hc|].
    destruct (Z.eq_dec y 101) as [-> |N3].
    { destruct a as [|z a]; [destruct l as [|a' l]; [discriminate E|]|]; (eapply K; [|exact E]; apply FB). }
    apply D. destruct y as [|p|p]; try exact E. do 7 (try (destruct p as [p|p|]; try exact E)); exfalso; lia.
Qed.
Theorem C78_argv : forall jit args c flags argv s, main jit args = Runs c flags argv s ->
  (exists pre rest, args = pre ++ rest /\
     match s with Text _ => argv = lit "-e" :: rest | File f _ => argv = rest /\ exists r, rest = f :: r end) /\
  mode_of flags = c_exec c /\ Z.land flags DEBUG_INSPECT = Z.land (c_flags c) DEBUG_INSPECT /\ Z.land flags DEBUG_VERBOSE = Z.land (c_flags c) DEBUG_VERBOSE.
Proof.
  intros jit args c flags argv s E. unfold main in E.
  match type of E with match ?x with _ => _ end = _ => destruct x as [| | | |c0 rest] eqn:O end; try discriminate E.
  assert (F0 : fine (mkCmd 0 (if jit then EXEC_JIT else EXEC_VM) None None None [] [])) by (split; [destruct jit; cbv; split; discriminate|left; reflexivity]).
  destruct (opts_all _ _ _ _ _ (le_n _) F0 O) as ((F1 & F2) & pre & P).
  assert (G : c_exec c0 = 0 \/ c_exec c0 = 1 \/ c_exec c0 = 2 \/ c_exec c0 = 3 \/ c_exec c0 = 4) by lia.
  assert (B : forall fl, fl = c_flags c0 + c_exec c0 -> mode_of fl = c_exec c0 /\ Z.land fl DEBUG_INSPECT = Z.land (c_flags c0) DEBUG_INSPECT /\ Z.land fl DEBUG_VERBOSE = Z.land (c_flags c0) DEBUG_VERBOSE).
  { intros fl ->. cbn in F2. destruct F2 as [<-|[<-|[<-|[<-|[]]]]]; destruct G as [-> |[-> |[-> |[-> | -> ]]]]; repeat split; reflexivity. }
  destruct (c_buf c0) as [t|].
  - injection E as <- <- <- <-. split; [|apply B; reflexivity]. exists pre, rest. auto.
  - destruct rest as [|f rest]; [destruct (_ || _); discriminate E|]. injection E as <- <- <- <-. split; [|apply B; reflexivity]. exists pre, (f :: rest). eauto.
Qed.

(** Where the command line falls short: only the last module is loaded; a directory attached to -L and a module
    attached to --debug= are unknown options; -e and -L as the last argument, and "--debug=", are undefined;
    code after -e that begins with "-" is taken for an option as well. *)
Theorem C78_short_refuted :
  (forall m1 m2, last_of says_module [Module m1; Module m2] None = Some (loading [] (before_eq m2) (after_eq m2))) /\
  (forall d, d <> [] -> well (Unknown (lit "-L" ++ d))) /\ (forall m, m <> [] -> well (Unknown (lit "--debug=" ++ m))) /\
  (forall jit os, Forall well os -> main jit (line os ++ [lit "-L"]) = Shows Crash /\ main jit (line os ++ [lit "-e"]) = Shows Crash) /\
  (forall jit os r, Forall well os -> main jit (line os ++ lit "--debug=" :: r) = Shows Crash) /\
  (forall jit os code, Forall well os -> well (Unknown code) -> exists c, main jit (line os ++ [lit "-e"; code]) =
     Runs c (bits os + last_of says_mode os (default jit)) [lit "-e"] (Text (match last_of says_module os None with Some m => m ++ code | None => code end)) /\
     c_unknown c = unknowns os ++ [code]) /\
  (exists jit c, main jit [lit "-e"; lit "-v"] = Shows Version /\ main jit [lit "-e"; lit "-1 print"] = c /\ c <> main jit [lit "-e"; lit "(-1) print"]).
Proof.
  split; [reflexivity|]. split; [|split; [|split; [|split; [|split]]]].
  - intros [|x d] H; [contradiction|]. split; [|split].
    + intros Q. unfold all_known in Q. cbn [map In lit list_ascii_of_string nat_of_ascii] in Q. repeat (destruct Q as [Q|Q]; [vm_compute in Q; discriminate Q|]). exact Q.
    + intros k E. vm_compute in E. discriminate E.
    + exists (76 :: x :: d). split; [reflexivity|]. intros c r' E. injection E as <- _. lia.
  - intros [|x d] H; [contradiction|]. split; [|split].
    + intros Q. unfold all_known in Q. cbn [map In lit list_ascii_of_string nat_of_ascii] in Q. repeat (destruct Q as [Q|Q]; [vm_compute in Q; discriminate Q|]). exact Q.
    + intros k E. vm_compute in E. discriminate E.
    + exists (lit "-debug=" ++ x :: d). split; [reflexivity|]. intros c r' E. change (lit "-debug=" ++ x :: d) with (45 :: lit "debug=" ++ x :: d) in E. injection E as <- _. lia.
  - intros jit os H. unfold main. change (if jit then EXEC_JIT else EXEC_VM) with (default jit). rewrite !line_means by exact H. split; reflexivity.
  - intros jit os r H. unfold main. change (if jit then EXEC_JIT else EXEC_VM) with (default jit). rewrite !line_means by exact H. reflexivity.
  - intros jit os code H W. unfold main. change (if jit then EXEC_JIT else EXEC_VM) with (default jit). rewrite line_means by exact H.
    change (opts (means jit os) [lit "-e"; code]) with (opts (set_buf (cat (c_add (means jit os)) code) (means jit os)) (words (Unknown code) ++ [])).
    rewrite one_option by exact W. cbn [opts]. exists (after (Unknown code) (set_buf (cat (c_add (means jit os)) code) (means jit os))). split; [|reflexivity].
    unfold after. cbn [c_buf c_flags c_exec says_mode set_buf c_add means]. rewrite Z.lor_0_r. reflexivity.
  - exists true. eexists. split; [reflexivity|]. split; [reflexivity|]. intros E. vm_compute in E. discriminate E.
Qed.
(** a command line *)
Theorem C78_example : main true (map lit ["-V"; "-B"; "-L"; "lib"; "-Mfoo=1,2"; "prog.pn"; "-x"; "--"]) =
  Runs (mkCmd 128 0 None None (Some (lit "load " ++ [34] ++ lit "foo" ++ [34; 10] ++ lit "foo(1,2)" ++ [10])) [lit "lib"] []) 128
    (map lit ["prog.pn"; "-x"; "--"]) (File (lit "prog.pn") (Some (lit "load " ++ [34] ++ lit "foo" ++ [34; 10] ++ lit "foo(1,2)" ++ [10]))).
Proof. reflexivity. Qed.

(** ** C79 *)
(** What is run is the modules' code and the file's content, all of it, or nothing. *)
Theorem C79_whole_file : forall w name before i w' t, names w name = Some i ->
  cmd_file w name before (zlen (ino w i)) w' (Some t) ->
  t = (match before with Some m => m | None => [] end) ++ ino w i /\ ino w' = ino w /\ names w' = names w.
Proof.
  intros w name before i w' t N (w1 & fd & Op & C). inversion Op as [|fd0 i0 w2 F1 F2 F3]; subst.
  - cbn in C. destruct C as [_ C]. discriminate C.
  - replace (fd =? -1) with false in C by lia. destruct C as (r & buf & R & E). destruct (r =? zlen (ino w i)) eqn:Er; [|discriminate E]. injection E as ->.
    change (flag O_RDONLY O_TRUNC) with false in R. cbn iota in R.
    destruct F3 as [[F3 ->]|(F3 & _)]; [|congruence]. assert (i0 = i) by congruence. subst i0.
    inversion R as [|d k D1 D2 rest0 K1 K2 K3]; subst; [unfold zlen in Er; lia|].
    cbn [set_fd fds] in D1. rewrite Z.eqb_refl in D1. injection D1 as <-. cbn [d_pos d_ino set_fd ino names] in *. subst rest0.
    assert (r = zlen (ino w i)) by lia. subst r. unfold zdrop. cbn [Z.to_nat skipn].
    unfold ztake, zlen. rewrite Nat2Z.id, firstn_all. split; [destruct before; reflexivity|]. auto.
Qed.
(** If the file changed between the two looks at it, what is run is at most its beginning. *)
Theorem C79_beginning : forall w name before i n w' t, names w name = Some i -> 0 <= n ->
  cmd_file w name before n w' (Some t) ->
  t = (match before with Some m => m | None => [] end) ++ ztake n (ino w i) /\ n <= zlen (ino w i).
Proof.
  intros w name before i n w' t N Hn (w1 & fd & Op & C). inversion Op as [|fd0 i0 w2 F1 F2 F3]; subst.
  - cbn in C. destruct C as [_ C]. discriminate C.
  - replace (fd =? -1) with false in C by lia. destruct C as (r & buf & R & E). destruct (r =? n) eqn:Er; [|discriminate E]. injection E as ->.
    change (flag O_RDONLY O_TRUNC) with false in R. cbn iota in R.
    destruct F3 as [[F3 ->]|(F3 & _)]; [|congruence]. assert (i0 = i) by congruence. subst i0.
    inversion R as [|d k D1 D2 rest0 K1 K2 K3]; subst; [lia|].
    cbn [set_fd fds] in D1. rewrite Z.eqb_refl in D1. injection D1 as <-. cbn [d_pos d_ino set_fd ino names] in *. subst rest0.
    assert (r = n) by lia. subst r. unfold zdrop in *. cbn [Z.to_nat skipn] in *. split; [destruct before; reflexivity|exact K2].
Qed.
(** A file that is not there is not run. *)
Theorem C79_absent : forall w name before n w' t, names w name = None -> cmd_file w name before n w' t -> t = None /\ w' = w.
Proof.
  intros w name before n w' t N (w1 & fd & Op & C). inversion Op as [|fd0 i0 w2 F1 F2 F3]; subst.
  - cbn in C. destruct C as [-> ->]. auto.
  - destruct F3 as [[F3 _]|(_ & F & _)]; [congruence|discriminate F].
Qed.
(** A file that can be opened and read at once is run. *)
Theorem C79_runs : forall w name before i fd, names w name = Some i -> 0 <= fd < 2147483648 -> fds w fd = None ->
  exists w', cmd_file w name before (zlen (ino w i)) w' (Some (match before with Some m => m | None => [] end ++ ino w i)).
Proof.
  intros w name before i fd N H1 H2. eexists. eexists _, fd. split; [apply (open_gives _ _ _ fd i w H1 H2); left; auto|].
  replace (fd =? -1) with false by lia. exists (zlen (ino w i)), (ino w i). split; [|rewrite Z.eqb_refl; destruct before; reflexivity].
  change (flag O_RDONLY O_TRUNC) with false. cbn iota.
  match goal with |- sys_read ?w1 _ _ _ _ _ => pose proof (read_gives w1 fd (zlen (ino w i)) (mkDesc i 0 (O_RDONLY mod 4) (flag O_RDONLY O_APPEND)) (zlen (ino w i))) as Q end.
  cbn [set_fd fds ino d_ino d_pos d_acc d_app names] in Q. rewrite Z.eqb_refl in Q. unfold zdrop in Q. change (skipn (Z.to_nat 0) (ino w i)) with (ino w i) in Q. cbv zeta in Q.
  assert (E : ztake (zlen (ino w i)) (ino w i) = ino w i) by (unfold ztake, zlen; rewrite Nat2Z.id; apply firstn_all).
  rewrite E in Q. apply Q; [reflexivity|discriminate|unfold zlen; lia|lia|].
  intros E0. destruct (ino w i); [reflexivity|rewrite zlen_cons in E0; unfold zlen in E0; lia].
Qed.
(** The compiled file: its name is the file's with "b", ".c" or ".out" behind it, so never the file itself; it is
    undefined for an unknown target and for names too long for the buffer. *)
Theorem C79_outpath : forall compile name,
  (forall p, outpath compile name = Ok p -> p <> name /\ exists s, p = name ++ s /\ In s [lit "b"; lit ".c"; lit ".out"] /\ zlen p < 255) /\
  (outpath None name = Ok (name ++ lit "b") <-> zlen name <= 253) /\
  (outpath (Some (lit "exe")) name = Ok (name ++ lit ".out") <-> zlen name <= 250) /\
  (forall opts, outpath (Some (lit "c," ++ opts)) name = Ok (name ++ lit ".c") <-> zlen name <= 252).
Proof.
  intros compile name.
  assert (A : forall s, zlen (name ++ s) = zlen name + zlen s) by (intros; unfold zlen; rewrite app_length; lia).
  split; [|split; [|split]].
  - intros p E. unfold outpath in E. destruct (out_suffix compile) as [s|] eqn:S; [|discriminate E]. destruct (_ <=? 255) eqn:L; [|discriminate E]. injection E as <-.
    assert (I : In s [lit "b"; lit ".c"; lit ".out"]).
    { unfold out_suffix in S. destruct (target compile) as [k|]; [|injection S as <-; cbn; tauto].
      repeat match type of S with (if ?b then _ else _) = _ => destruct b end; try discriminate S; injection S as <-; cbn; tauto. }
    split; [|exists s; rewrite A; repeat split; [exact I|lia]].
    intros E. apply (f_equal zlen) in E. rewrite A in E. cbn in I. destruct I as [<-|[<-|[<-|[]]]]; cbv [zlen lit map list_ascii_of_string length] in E; lia.
  - unfold outpath. change (out_suffix None) with (Some (lit "b")). cbv iota. change (zlen (lit "b")) with 1. destruct (_ <=? 255) eqn:L; split; intros H; try reflexivity; try lia; discriminate H.
  - unfold outpath. change (out_suffix (Some (lit "exe"))) with (Some (lit ".out")). cbv iota. change (zlen (lit ".out")) with 4. destruct (_ <=? 255) eqn:L; split; intros H; try reflexivity; try lia; discriminate H.
  - intros o. unfold outpath. change (out_suffix (Some (lit "c," ++ o))) with (Some (lit ".c")). cbv iota. change (zlen (lit ".c")) with 2. destruct (_ <=? 255) eqn:L; split; intros H; try reflexivity; try lia; discriminate H.
Qed.
(** Every target, with or without options after a comma. *)
Theorem C79_targets : forall k s tail name, In (k, s) [("bc", "b"); ("c", ".c"); ("exe", ".out")] -> tail = [] \/ (exists o, tail = 44 :: o) ->
  (outpath (Some (lit k ++ tail)) name = Ok (name ++ lit s) <-> zlen name + zlen (lit s) <= 254) /\
  (254 < zlen name + zlen (lit s) -> outpath (Some (lit k ++ tail)) name = UB).
Proof.
  intros k s tail name I T.
  assert (E : out_suffix (Some (lit k ++ tail)) = Some (lit s)).
  { cbn [In] in I. destruct I as [[= <- <-]|[[= <- <-]|[[= <- <-]|[]]]]; destruct T as [->|(o & ->)]; reflexivity. }
  unfold outpath. rewrite E. destruct (zlen name + zlen (lit s) + 1 <=? 255) eqn:L.
  - split; [split; [lia | reflexivity] | lia].
  - split; [split; [discriminate | lia] | reflexivity].
Qed.
Theorem C79_other_targets : forall k tail name, ~ In 44 k -> ~ In k [lit "bc"; lit "c"; lit "exe"] -> tail = [] \/ (exists o, tail = 44 :: o) ->
  outpath (Some (k ++ tail)) name = UB.
Proof.
  intros k tail name N I T. unfold outpath, out_suffix, target.
  assert (E : (fix cut l := match l with [] => [] | c :: l => if c =? 44 then [] else c :: cut l end) (k ++ tail) = k).
  { clear I. induction k as [|c k IH]; [destruct T as [->|(o & ->)]; reflexivity|]. cbn [app]. destruct (Z.eqb_spec c 44) as [->|D]; [exfalso; apply N; left; reflexivity|].
    f_equal. apply IH. intros K. apply N. right. exact K. }
  rewrite E. rewrite !is_false by (intros ->; apply I; cbn; tauto). reflexivity.
Qed.
Theorem C79_long_name_refuted : forall name, 254 <= zlen name -> outpath None name = UB /\ outpath (Some (lit "js")) [] = UB.
Proof.
  intros name H. split; [|reflexivity]. unfold outpath. change (out_suffix None) with (Some (lit "b")). cbv iota. change (zlen (lit "b")) with 1. replace (_ <=? 255) with false by lia. reflexivity.
Qed.
