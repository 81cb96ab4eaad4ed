(** C68: one program, three ways to run it: interpreted, saved as bytecode and loaded
    again, compiled to machine code.  From the bytes of its text, read through the
    parser's buffer, all of them give the value of the program. *)
From Verif Require Import Base Arr GArr WordModel AsmModel SigModel DumpModel PropDump CompileModel VmModel SrcSpec CompileEq CompileTotal SimTop PropCompile PropCompile2 Toy
  SyntaxModel TextSpec PropParse BufModel PropInput SaveModel PropSave X86Model JitModel JitProofs JitSem JitLayout JitArith JitSim JitRun PropJit.
From Coq Require Import ZifyBool.
Ltac Zify.zify_post_hook ::= Z.div_mod_to_equations.

(** the conditions on the program and its text *)
Record runs_from_text {W} (H : host W) (str : list Z -> Z) (chr0 : Z -> Z) (is_str : Z -> bool) (es : exps) (text : list Z) : Prop := mkText {
  rt_names : names_ok str;
  rt_text : program_text str es text;
  rt_short : zlen text < 16384;
  rt_ok : program_ok chr0 is_str es;
  rt_few : few_all es = true;
  rt_cells : (forall w v, h_isref H w v = false) \/
    (forall l ps b, In (l, (ps, b)) (fns_all es) -> forall x, In x (sets_all b) -> memb x ps = true) }.
(** what the parser reads and the compiler makes of it *)
Definition compiles_to (str dbl : list Z -> Z) (junk : Z -> sf) (old : list Z) (chr0 : Z -> Z) (text : list Z) (m : pb) (t : list pb) : Prop :=
  exists tree, (exists n0, forall n, (n0 <= n)%nat -> parse_buf str dbl false n junk old text = Some (BDone (PTree tree)))
    /\ exists K, forall k, (K <= k)%nat -> source_compile chr0 k tree = Ok (m, t).

Section Routes.
  Context {W : Type} (H : host W) (str dbl : list Z -> Z) (junk : Z -> sf) (old : list Z) (chr0 : Z -> Z) (is_str : Z -> bool) (es : exps) (text : list Z).
  Context (R : runs_from_text H str chr0 is_str es text).
  Lemma compiles_prog m t : compiles_to str dbl junk old chr0 text m t -> exists K, forall k, (K <= k)%nat -> source_compile chr0 k (program es) = Ok (m, t).
  Proof.
    intros (tree & (n0 & P) & K & C). destruct R. pose proof (C64_short_program str dbl junk old es text rt_names0 rt_text0 rt_short0) as (n1 & Q).
    specialize (P (Nat.max n0 n1) ltac:(lia)). specialize (Q (Nat.max n0 n1) ltac:(lia)). rewrite P in Q. injection Q as ->. eauto.
  Qed.
  (** the text is parsed and compiled, to one result *)
  Theorem C68_text_compiles : exists m t, compiles_to str dbl junk old chr0 text m t
    /\ forall m' t', compiles_to str dbl junk old chr0 text m' t' -> m' = m /\ t' = t.
  Proof.
    destruct (C47_compile_and_run H chr0 is_str 0 es (rt_ok _ _ _ _ _ _ R) (rt_few _ _ _ _ _ _ R) (rt_cells _ _ _ _ _ _ R)) as (m & t & (K & C) & _).
    exists m, t. assert (CT : compiles_to str dbl junk old chr0 text m t).
    { exists (program es). split; [|eauto]. apply C64_short_program; apply R. }
    split; [exact CT|]. intros m' t' CT'. destruct (compiles_prog m' t' CT') as (K' & C'). specialize (C (Nat.max K K') ltac:(lia)). specialize (C' (Nat.max K K') ltac:(lia)).
    rewrite C in C'. injection C' as -> ->. auto.
  Qed.
  Context (m : pb) (t : list pb) (CT : compiles_to str dbl junk old chr0 text m t).
  Context (d : nat) (self : Z) (w w' : W) (v : Z).
  Context (FT : PropCompile.fits (t ++ [m]) d) (TS : truth self = true) (ME : means H es d self w w' v).
  Theorem C68_interpreted STR0 : returns H (t ++ [m]) is_str STR0 (zlen t) self w w' v.
  Proof.
    destruct (compiles_prog m t CT) as (K & C). eapply C47_programs_with_functions; [apply R | apply (C K); lia | exact FT | apply R | exact TS | exact ME].
  Qed.
  Theorem C68_saved_and_loaded STR0 content intern name p :
    plain_name name -> (forall g, In g (t ++ [m]) -> storable content intern g) ->
    saves content (t ++ [m]) name true m p -> dump_size p <= 8208 ->
    exists bytes q, source_dumpbc p = Ok bytes
      /\ (forall fuel, (pdepth p <= fuel)%nat -> source_load fuel bytes = Ok (Some q))
      /\ returns H (install intern 0 q) is_str STR0 (zlen (install intern 0 q) - 1) self w w' v.
  Proof.
    intros NM ST SV SZ. destruct (compiles_prog m t CT) as (K & C).
    eapply C67_run_the_saved_program; [exact NM | apply R | apply (C K); lia | exact ST | exact SV | exact SZ | exact FT | exact TS | apply R | exact ME].
  Qed.
  Theorem C68_machine_code STR0 (X : xhost W) addr rt nc P cl protoargs code S0 s0 x w1 v1 :
    is_str COLON = false -> jit_proto addr is_str m protoargs = Ok code -> zlen code < 2147483648 ->
    runtime H X addr rt nc P cl m -> stack_ok m protoargs S0 -> called x S0 P cl self [] w ->
    vm_start (t ++ [m]) is_str (zlen t) self ANone [] w (start_stack (t ++ [m])) = Ok (SRun s0) ->
    arun H (t ++ [m]) is_str STR0 m nc P (D0 is_str m) s0 w1 v1 ->
    machine_returns X code S0 x w' v.
  Proof.
    intros. destruct (compiles_prog m t CT) as (K & C).
    eapply (C59_source_to_machine H X chr0 is_str STR0 K es m t d self w w' v); eauto; apply R.
  Qed.
End Routes.

(** the hypotheses are met by the factorial text of PropParse *)
Example C68_example : runs_from_text (toy (sigs_of (compile1 ex_fact))) toy_table lower toy_str ex_fact fact_text.
Proof.
  constructor; [exact toy_names | exact fact_is_text | vm_compute; reflexivity | exact fact_ok | apply few_case |].
  right. intros l ps b K. vm_compute in K. destruct K as [[= <- <- <-]|[]]. intros z [].
Qed.
