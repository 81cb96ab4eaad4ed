(** C45, C46, C47: compiling a program and running the bytecode gives what the
    source semantics (SrcSpec.v) prescribes. *)
From Verif Require Import Base Arr GArr WordModel NumModel AsmModel SigModel CompileModel VmModel SrcSpec CompileProofs CompileEq CompileExt CodeGen SimStep SimBase SimTop CodeOk VmMono Toy.
From Coq Require Import ZifyBool.
Ltac Zify.zify_post_hook ::= Z.div_mod_to_equations.

(** ** The statement *)
(** A well-formed program: scoping rules, function numbers in order, at most 255
    registers, parameters are names. *)
Definition program_ok (chr0 : Z -> Z) (is_str : Z -> bool) (es : exps) : Prop :=
  (exists L, wf_all (isupper chr0) [] false [] es = Some L)
  /\ (exists n, lab_all 0 es = Some n)
  /\ need_all es <= 255
  /\ (forall l ps b, In (l, (ps, b)) (fns_all es) -> forall x, In x ps -> is_str x = true /\ PN_IS_INT x = false).
(** Its meaning: started with receiver [self] in world [w], nested calls of its own
    functions at most [d] deep, it ends in world [w'] with the value [v] (the last
    statement, a return, or an error object that ends the program). *)
Definition means {W} (H : host W) (es : exps) (d : nat) (self : Z) (w w' : W) (v : Z) : Prop :=
  exists n E o, evals H (funs_of es) (capt_of es) n d self (fun _ => None) w nils (Some self) es = Ok (w', E, o)
    /\ (o = Val (Some v) \/ o = Ret v \/ o = Abort v).
(** The limits of the bytecode format and of the interpreter's stack: each table
    of a function has at most 2047 entries, a frame at most M - 2 words and 1024
    registers, and d + 1
    frames fit on the stack. *)
Definition fits (tbl : list pb) (d : nat) : Prop :=
  exists M, (Z.of_nat d + 1) * M + 8 <= 4096 /\
  forall g, In g tbl ->
    zlen (b_code g) <= 2047 /\ zlen (b_values g) <= 2047 /\ zlen (b_locals g) <= 2047
    /\ zlen (b_upvals g) <= 2047 /\ zlen (b_protos g) <= 2047 /\ b_stack g <= 1024
    /\ zlen (b_upvals g) + zlen (b_locals g) + 1 + b_stack g + 2 <= M.
(** The interpreter, started on function [pid] of the table, returns [v] and leaves
    the world [w'], and cannot do anything else. *)
Definition returns {W} (H : host W) (tbl : list pb) (is_str : Z -> bool) (STR0 pid self : Z) (w w' : W) (v : Z) : Prop :=
  exists fs',
    (exists N, forall fuel, (N <= fuel)%nat -> potion_vm H tbl is_str STR0 fuel pid self None [] w (start_stack tbl) = Ok (w', fs', v))
    /\ forall fuel, let r := potion_vm H tbl is_str STR0 fuel pid self None [] w (start_stack tbl) in r = NoFuel \/ r = Ok (w', fs', v).

Lemma fits_tbl_ok tbl d : fits tbl d -> exists M, tbl_ok tbl M /\ (Z.of_nat d + 1) * M + 8 <= 4096.
Proof.
  intros (M & K & F). exists M. split; [|exact K]. intros pid g G. unfold gnth in G. destruct (pid <? 0); [discriminate|]. apply nth_error_In in G.
  destruct (F g G) as (A1 & A2 & A3 & A4 & A5 & A6 & A7). split; [unfold small; auto 8|exact A7].
Qed.

(** ** C47: functions, closures, recursion *)
(** A captured variable lives in a reference cell.  A function's own variables that
    are not parameters are not initialised, so a stale reference could be written
    through: either the world has no references, or every function assigns only its
    parameters (and the variables of enclosing functions). *)
Theorem C47_programs_with_functions {W} (H : host W) chr0 is_str STR0 k es m t d self (w w' : W) v :
  program_ok chr0 is_str es ->
  source_compile chr0 k (program es) = Ok (m, t) ->
  fits (t ++ [m]) d ->
  ((forall w v, h_isref H w v = false) \/
   (forall l ps b, In (l, (ps, b)) (fns_all es) -> forall x, In x (sets_all b) -> memb x ps = true)) ->
  truth self = true ->
  means H es d self w w' v ->
  returns H (t ++ [m]) is_str STR0 (zlen t) self w w' v.
Proof.
  intros ((L & WF) & (n' & LB) & ND & NM) SC FT HL TS (n & E & o & EV & OV). destruct (fits_tbl_ok _ _ FT) as (M & TO & DM).
  destruct (program_run H chr0 is_str STR0 M k es L n' m t n d self w w' E o v WF LB ND SC NM HL TO DM TS EV OV) as (N & fs' & K).
  exists fs'. split; [exists N; exact K|]. intros fuel. cbv zeta. eapply vm_unique. exact K.
Qed.

(** ** C46: control flow *)
(** no functions of its own; it may call native ones *)
Theorem C46_control_flow {W} (H : host W) chr0 is_str STR0 k es m t self (w w' : W) v :
  program_ok chr0 is_str es -> fns_all es = [] ->
  source_compile chr0 k (program es) = Ok (m, t) ->
  fits (t ++ [m]) 0 ->
  truth self = true ->
  means H es 0 self w w' v ->
  returns H (t ++ [m]) is_str STR0 (zlen t) self w w' v.
Proof.
  intros PO NF SC FT TS ME. eapply C47_programs_with_functions; try eassumption. right. intros l ps b K. rewrite NF in K. destruct K.
Qed.

(** every instruction mentions only registers, constants, variables and functions
    that exist, every jump stays in the code, and the code ends with a return *)
Theorem C46_code_is_well_formed chr0 is_str k es m t :
  program_ok chr0 is_str es -> source_compile chr0 k (program es) = Ok (m, t) -> forall g, In g (t ++ [m]) ->
  zlen (b_code g) <= 2047 -> zlen (b_values g) <= 2047 -> zlen (b_locals g) <= 2047 ->
  zlen (b_upvals g) <= 2047 -> zlen (b_protos g) <= 2047 -> b_stack g <= 1024 ->
  (forall i x, gnth (b_code g) i = Some x -> instr_ok g i x)
  /\ gnth (b_code g) (zlen (b_code g) - 1) = Some (mkI O_RETURN 0 0).
Proof.
  intros ((L & WF) & (n' & LB) & ND & NM) SC g IN A1 A2 A3 A4 A5 A6. eapply code_ok; try eassumption. unfold small. auto 8.
Qed.

(** ** C45: straight-line programs *)
Fixpoint straight (e : exp) : bool :=
  match e with
  | ELit _ | EVar _ | ESelf | EInc _ _ _ | EPath _ => true
  | EBin _ a b | EAnd a b | EOr a b => straight a && straight b
  | ENot a | EBitn a | ESet _ a | EGlob _ a | EPathOf a _ | EPathSet _ a | EReturn a => straight a
  | EList es | ESeq es | ELick _ es => straight_all es
  | EAt _ _ _ => true
  | _ => false
  end
with straight_all (es : exps) : bool :=
  match es with Nil => true | Cons e es => straight e && straight_all es end.
Lemma straight_fns : (forall e, straight e = true -> fns e = []) /\ (forall es, (straight_all es = true -> fns_all es = []) /\ True /\ True) /\ (forall k : clauses, True).
Proof.
  apply exp_ind3; intros; try exact Logic.I; try (split; [|split; exact Logic.I]; intros); cbn [straight straight_all fns fns_all] in *; try reflexivity; try discriminate;
  repeat match goal with H : _ /\ _ |- _ => destruct H end; repeat match goal with K : _ && _ = true |- _ => apply andb_prop in K; destruct K end;
  repeat match goal with IH : ?c = true -> _ = [] , K : ?c = true |- _ => rewrite (IH K) end; try reflexivity.
Qed.
Theorem C45_straight_line_programs {W} (H : host W) chr0 is_str STR0 k es m t self (w w' : W) v :
  program_ok chr0 is_str es -> straight_all es = true ->
  source_compile chr0 k (program es) = Ok (m, t) ->
  fits (t ++ [m]) 0 ->
  truth self = true ->
  means H es 0 self w w' v ->
  returns H (t ++ [m]) is_str STR0 (zlen t) self w w' v.
Proof. intros PO ST. eapply C46_control_flow; [eassumption|]. apply straight_fns. exact ST. Qed.

(** ** Concrete cases *)
Definition lower (_ : Z) : Z := 97.
Definition N (z : Z) : exp := ELit (PN_NUM z).
Fixpoint L (l : list exp) : exps := match l with [] => Nil | e :: l => Cons e (L l) end.
Definition compile1 (es : exps) : list pb := match source_compile lower 100 (program es) with Ok (m, t) => t ++ [m] | _ => [] end.
Definition run1 (es : exps) (fuel : nat) : res Z :=
  let t := compile1 es in
  do r <- potion_vm (toy (sigs_of t)) t toy_str 0 fuel (zlen t - 1) (PN_NUM 7) None [] [] (start_stack t); Ok (snd r).
Definition eval1 (es : exps) (n d : nat) : res (option Z) :=
  do r <- evals (toy (sigs_of (compile1 es))) (funs_of es) (capt_of es) n d (PN_NUM 7) (fun _ => None) [] nils (Some (PN_NUM 7)) es;
  match snd r with Val v => Ok v | Ret v | Abort v => Ok (Some v) | _ => UB end.
Definition x := nm 0. Definition y := nm 1. Definition f := nm 2. Definition g := nm 3. Definition i := nm 4.

(** x = 3, y = x * (x + 4), y - 1 << 2 *)
Definition ex_straight : exps :=
  L [ESet x (N 3); ESet y (EBin TIMES (EVar x) (ESeq (L [EBin PLUS (EVar x) (N 4)]))); EBin BITL (EBin MINUS (EVar y) (N 1)) (N 2)].
(** sum of the odd numbers below 10, stopping at 100:
    x = 0, i = 0, loop: i++, if (i > 9): break. if (i % 2 == 0): continue. x = x + i. , x *)
Definition ex_loop : exps :=
  L [ESet x (N 0); ESet i (N 0);
     ELoop (L [EInc i true true; EIf (EBin GT (EVar i) (N 9)) (L [EBreak]) KEnd;
               EIf (EBin EQ (EBin REM (EVar i) (N 2)) (N 0)) (L [ECont]) KEnd;
               ESet x (EBin PLUS (EVar x) (EVar i))]);
     EVar x].
(** f = (x): if (x == 0): 1. else: x * f(x - 1).. , f(5) *)
Definition ex_fact : exps :=
  L [ESet f (EFun 0 [x] (L [EIf (EBin EQ (EVar x) (N 0)) (L [N 1])
               (KElse (L [EBin TIMES (EVar x) (ECallUp f (L [EBin MINUS (EVar x) (N 1)]))]))]));
     ECallVar f (L [N 5])].
(** a counter: g = (x): (y): x = x + y.. , f = g(10), f(1), f(2), f(3) *)
Definition ex_counter : exps :=
  L [ESet g (EFun 1 [x] (L [EFun 0 [y] (L [EUpSet x (EBin PLUS (EUp x) (EVar y))])]));
     ESet f (ECallVar g (L [N 10]));
     ECallVar f (L [N 1]); ECallVar f (L [N 2]); ECallVar f (L [N 3])].
Example ex_straight_case : eval1 ex_straight 20 0 = Ok (Some (PN_NUM 80)) /\ run1 ex_straight 100 = Ok (PN_NUM 80) /\ straight_all ex_straight = true.
Proof. vm_compute. auto. Qed.
(** x = 3, [f, g 4, i 5 (x + 1, 2), y () (x)]: the value and the licks built *)
Definition ex_licks : exps :=
  L [ESet x (N 3); EList (L [ELick f Nil; ELick g (L [N 4]); ELick i (L [N 5; EList (L [EBin PLUS (EVar x) (N 1); N 2])]);
     ELick y (L [ELit PN_NIL; EList (L [EVar x])])])].
Example ex_licks_case : straight_all ex_licks = true /\
  (let t := compile1 ex_licks in
   do r <- potion_vm (toy (sigs_of t)) t toy_str 0 100 (zlen t - 1) (PN_NUM 7) None [] [] (start_stack t); Ok (fst (fst r), snd r))
  = Ok ([OTup [addr 1; addr 2; addr 4; addr 6]; OLick f PN_NIL PN_NIL; OLick g (PN_NUM 4) PN_NIL;
         OTup [PN_NUM 4; PN_NUM 2]; OLick i (PN_NUM 5) (addr 3); OTup [PN_NUM 3]; OLick y PN_NIL (addr 5)], addr 0)
  /\ eval1 ex_licks 40 0 = Ok (Some (addr 0)).
Proof. vm_compute. auto. Qed.
Lemma licks_ok : program_ok lower toy_str ex_licks.
Proof.
  split; [eexists; vm_compute; reflexivity|]. split; [eexists; vm_compute; reflexivity|]. split; [vm_compute; discriminate|]. intros l ps b K. vm_compute in K. destruct K.
Qed.
(** x = [10, 20, 30], i = 1, x[2] - x[i]     and     x['k'] for a table in x *)
Definition ex_index : exps :=
  L [ESet x (EList (L [N 10; N 20; N 30])); ESet i (N 1); EBin PLUS (EBin TIMES (EAt false x (AInt 2)) (N 100)) (EAt false x (AVar i))].
Example ex_index_case : eval1 ex_index 40 0 = Ok (Some (PN_NUM 3020)) /\ run1 ex_index 100 = Ok (PN_NUM 3020) /\ straight_all ex_index = true.
Proof. vm_compute. auto. Qed.
(** x = [10, 20], f = (y): x[y] * 100 + x[0]., f(1) *)
Definition ex_index_up : exps :=
  L [ESet x (EList (L [N 10; N 20]));
     ESet f (EFun 0 [y] (L [EBin PLUS (EBin TIMES (EAt true x (AVar y)) (N 100)) (EAt true x (AInt 0))])); ECallVar f (L [N 1])].
Example ex_index_up_case : eval1 ex_index_up 60 3 = Ok (Some (PN_NUM 2010)) /\ run1 ex_index_up 300 = Ok (PN_NUM 2010).
Proof. vm_compute. auto. Qed.
Definition ex_key : exps := L [ESet x (ELit (addr 0)); EAt false x (AKey g)].
Example ex_key_case :
  let w := [OTab [(f, PN_NUM 1); (g, PN_NUM 2)]] in let t := compile1 ex_key in
  (do r <- potion_vm (toy (sigs_of t)) t toy_str 0 100 (zlen t - 1) (PN_NUM 7) None [] w (start_stack t); Ok (snd r)) = Ok (PN_NUM 2)
  /\ (do r <- evals (toy (sigs_of t)) (funs_of ex_key) (capt_of ex_key) 40 0 (PN_NUM 7) (fun _ => None) w nils (Some (PN_NUM 7)) ex_key; Ok (snd r))
     = Ok (Val (Some (PN_NUM 2))).
Proof. vm_compute. auto. Qed.
Example ex_loop_case : eval1 ex_loop 40 0 = Ok (Some (PN_NUM 25)) /\ run1 ex_loop 500 = Ok (PN_NUM 25) /\ fns_all ex_loop = [].
Proof. vm_compute. auto. Qed.
Example ex_fact_case : eval1 ex_fact 60 6 = Ok (Some (PN_NUM 120)) /\ run1 ex_fact 500 = Ok (PN_NUM 120).
Proof. vm_compute. auto. Qed.
Example ex_counter_case : eval1 ex_counter 60 2 = Ok (Some (PN_NUM 16)) /\ run1 ex_counter 500 = Ok (PN_NUM 16).
Proof. vm_compute. auto. Qed.

(** the hypotheses of C47 hold of the recursive example, and so the theorem applies *)
Definition no_locals (es : exps) : bool :=
  forallb (fun q => forallb (fun x => memb x (fst (snd q))) (sets_all (snd (snd q)))) (fns_all es).
Definition params_ok (es : exps) : bool :=
  forallb (fun q => forallb (fun x => toy_str x && negb (PN_IS_INT x)) (fst (snd q))) (fns_all es).
Definition fits_in (M : Z) (tbl : list pb) : bool :=
  forallb (fun g => (zlen (b_code g) <=? 2047) && (zlen (b_values g) <=? 2047) && (zlen (b_locals g) <=? 2047)
    && (zlen (b_upvals g) <=? 2047) && (zlen (b_protos g) <=? 2047) && (b_stack g <=? 1024)
    && (zlen (b_upvals g) + zlen (b_locals g) + 1 + b_stack g + 2 <=? M)) tbl.
Lemma fits_check M tbl d : fits_in M tbl = true -> (Z.of_nat d + 1) * M + 8 <= 4096 -> fits tbl d.
Proof. intros A B. exists M. split; [exact B|]. intros g G. pose proof (proj1 (forallb_forall _ _) A g G) as K. cbn in K. lia. Qed.
Lemma ok_check es : params_ok es = true -> (exists L, wf_all (isupper lower) [] false [] es = Some L) -> (exists n, lab_all 0 es = Some n) -> need_all es <= 255 ->
  program_ok lower toy_str es.
Proof.
  intros A B C D. split; [exact B|]. split; [exact C|]. split; [exact D|]. intros l ps b K z Z.
  pose proof (proj1 (forallb_forall _ _) A _ K) as Q. pose proof (proj1 (forallb_forall _ _) Q z Z) as R. cbn in R. apply andb_prop in R. rewrite negb_true_iff in R. exact R.
Qed.
Ltac prog := apply ok_check; [vm_compute; reflexivity|eexists; vm_compute; reflexivity|eexists; vm_compute; reflexivity|vm_compute; discriminate].
Lemma fact_ok : program_ok lower toy_str ex_fact.
Proof. prog. Qed.
Lemma fact_means : exists w', means (toy (sigs_of (compile1 ex_fact))) ex_fact 6 (PN_NUM 7) [] w' (PN_NUM 120).
Proof. eexists. exists 60%nat. eexists. eexists. split; [vm_compute; reflexivity|left; reflexivity]. Qed.
Example fact_by_theorem : exists t m w', source_compile lower 100 (program ex_fact) = Ok (m, t)
  /\ returns (toy (sigs_of (compile1 ex_fact))) (t ++ [m]) toy_str 0 (zlen t) (PN_NUM 7) [] w' (PN_NUM 120).
Proof.
  destruct fact_means as (w' & ME). destruct (source_compile lower 100 (program ex_fact)) as [[m t]| |] eqn:SC; [|exfalso; revert SC; vm_compute; discriminate..].
  exists t, m, w'. split; [reflexivity|]. eapply C47_programs_with_functions; [exact fact_ok|exact SC| | |reflexivity|exact ME].
  - apply (fits_check 100); [|vm_compute; discriminate]. revert SC. vm_compute. intros [= <- <-]. reflexivity.
  - right. intros l ps b K. vm_compute in K. destruct K as [[= <- <- <-]|[]]. intros z [].
Qed.

(** ** What goes wrong outside the hypotheses *)
(** [goes_wrong es d v r]: the program means [v], but the interpreter returns [r] *)
Definition goes_wrong (es : exps) (d : nat) (v r : Z) : Prop :=
  let H := toy (sigs_of (compile1 es)) in
  exists k m t w' fuel w'' fs,
    source_compile lower k (program es) = Ok (m, t)
    /\ means H es d (PN_NUM 7) [] w' v
    /\ potion_vm H (t ++ [m]) toy_str 0 fuel (zlen t) (PN_NUM 7) None [] [] (start_stack (t ++ [m])) = Ok (w'', fs, r)
    /\ v <> r.
Ltac wrong k fuel n := 
  exists k; eexists; eexists; eexists; exists fuel; eexists; eexists;
  split; [vm_compute; reflexivity|split; [exists n; eexists; eexists; split; [vm_compute; reflexivity|left; reflexivity]|split; [vm_compute; reflexivity|discriminate]]].

(** x = 0, if (true): if (nil): 1. . else: x = 3. , x    gives 3 *)
Definition bad_else : exps :=
  L [ESet x (N 0); EIf (ELit PN_TRUE) (L [EIf (ELit PN_NIL) (L [N 1]) KEnd]) (KElse (L [ESet x (N 3)])); EVar x].
Theorem C46_else_after_nested_if_refuted : goes_wrong bad_else 0 (PN_NUM 0) (PN_NUM 3).
Proof. wrong 100%nat 100%nat 30%nat. Qed.

(** x = 0, if (nil): (2100 statements). x = 5, x    jumps out of the function and
    returns the receiver *)
Definition bad_jump : exps :=
  L [EIf (ELit PN_NIL) (L (repeat (N 1) 2100)) KEnd; N 5].
Theorem C46_long_jump_refuted : program_ok lower toy_str bad_jump /\ goes_wrong bad_jump 0 (PN_NUM 5) (PN_NUM 7).
Proof. split; [prog|]. wrong 100%nat 100%nat 30%nat. Qed.

(** g = (x): y = x, (z): y.. , f = g(1), i = g(2), f(0)    the two closures share y *)
Definition bad_locals : exps :=
  L [ESet g (EFun 1 [x] (L [ESet y (EVar x); EFun 0 [nm 5] (L [EUp y])]));
     ESet f (ECallVar g (L [N 1])); ESet i (ECallVar g (L [N 2])); ECallVar f (L [N 0])].
Theorem C47_fresh_locals_refuted : program_ok lower toy_str bad_locals /\ fits (compile1 bad_locals) 2 /\ goes_wrong bad_locals 2 (PN_NUM 1) (PN_NUM 2).
Proof. split; [prog|]. split; [apply (fits_check 100); vm_compute; [reflexivity|discriminate]|]. wrong 100%nat 300%nat 50%nat. Qed.

(** f = (x): if (x == 0): 1. else: f(x - 1).. , f(600): past the interpreter's stack
    a nested interpreter is started without the last argument *)
Definition deep : exps :=
  L [ESet f (EFun 0 [x] (L [EIf (EBin EQ (EVar x) (N 0)) (L [N 1]) (KElse (L [ECallUp f (L [EBin MINUS (EVar x) (N 1)])]))]));
     ECallVar f (L [N 600])].
Theorem C47_deep_recursion_refuted : program_ok lower toy_str deep
  /\ exists k m t w' fuel, source_compile lower k (program deep) = Ok (m, t)
    /\ let H := toy (sigs_of (compile1 deep)) in means H deep 602 (PN_NUM 7) [] w' (PN_NUM 1)
    /\ potion_vm H (t ++ [m]) toy_str 0 fuel (zlen t) (PN_NUM 7) None [] [] (start_stack (t ++ [m])) = UB.
Proof.
  split; [prog|]. exists 100%nat. eexists. eexists. eexists. exists (100 * 100)%nat. split; [vm_compute; reflexivity|]. cbv zeta. split.
  - exists (100 * 100)%nat. eexists. eexists. split; [vm_compute; reflexivity|left; reflexivity].
  - vm_compute. reflexivity.
Qed.

(** x = [5, 5, .., 5, 7] with 1025 elements, x[1024]: an index beyond 1023 is put in
    a register, but the instruction does not say so, and the number of the register
    is taken for the index *)
Definition bad_index : exps := L [ESet x (EList (L (repeat (N 5) 1024 ++ [N 7]))); EAt false x (AInt 1024)].
Theorem C45_large_index_refuted : goes_wrong bad_index 0 (PN_NUM 7) (PN_NUM 5).
Proof. wrong 1200%nat 5000%nat 3000%nat. Qed.
(** i = 1, x = [10, 20], f = (y): x[i]., f(0)    an index that is a variable of an
    enclosing function is read from a fresh variable of the function: 10, not 20;
    copied to a variable of the function first it is 20 *)
Definition index_up (b : list exp) : exps :=
  L [ESet i (N 1); ESet x (EList (L [N 10; N 20])); ESet f (EFun 0 [y] (L b)); ECallVar f (L [N 0])].
Theorem C47_captured_index_refuted :
  run1 (index_up [EAt true x (AVar i)]) 300 = Ok (PN_NUM 10) /\ run1 (index_up [ESet y (EUp i); EAt true x (AVar y)]) 300 = Ok (PN_NUM 20)
  /\ eval1 (index_up [ESet y (EUp i); EAt true x (AVar y)]) 60 3 = Ok (Some (PN_NUM 20)).
Proof. vm_compute. auto. Qed.

(** Default arguments.  g = (x, y := 5): x + y. , f = (x): if (x == 0): g(1). else:
    f(x - 1).. , f(n) should be 6 for every n; but filling in the missing argument
    grows the caller's frame size for good, and the return to an older activation of
    the same function computes that activation's frame from the new size. *)
Definition gfun : src :=
  S1 EXPR (STup [Src PROTO
    (SSrc (S1 LIST (STup [S1 EXPR (STup [MsgOf x SNil SNil]);
                          Src ASSIGN (SSrc (S1 EXPR (STup [MsgOf y SNil SNil]))) (SSrc (S1 VALUE (SVal (PN_NUM 5)))) SNil])))
    (BlockOf (stms (L [EBin PLUS (EVar x) (EVar y)]))) SNil]).
Definition default_tree (n : Z) : src :=
  S1 CODE (STup (Src ASSIGN (SSrc (S1 EXPR (STup [MsgOf g SNil SNil]))) (SSrc gfun) SNil ::
    stms (L [ESet f (EFun 1 [x] (L [EIf (EBin EQ (EVar x) (N 0)) (L [ECallUp g (L [N 1])]) (KElse (L [ECallUp f (L [EBin MINUS (EVar x) (N 1)])]))]));
             ECallVar f (L [N n])]))).
Definition run_tree (t : src) (fuel : nat) : res Z :=
  match source_compile lower 100 t with
  | Ok (m, p) => let t := p ++ [m] in
      do r <- potion_vm (toy (sigs_of t)) t toy_str 0 fuel (zlen p) (PN_NUM 7) None [] [] (start_stack t); Ok (snd r)
  | _ => NoFuel
  end.
Theorem C47_default_arguments_refuted : run_tree (default_tree 0) 300 = Ok (PN_NUM 6) /\ run_tree (default_tree 1) 300 = UB.
Proof. vm_compute. auto. Qed.
