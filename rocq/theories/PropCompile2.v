(** C46, C47: the compiler accepts every well-formed program. *)
From Verif Require Import Base Arr GArr WordModel NumModel AsmModel SigModel CompileModel VmModel SrcSpec CompileProofs CompileEq CompileTotal Toy PropCompile.

(** [few_all es]: no loop has more than 1024 breaks or more than 1024 continues of
    its own (CompileTotal.v). *)
Theorem C46_every_program_compiles chr0 is_str es :
  program_ok chr0 is_str es -> few_all es = true ->
  exists m t, (exists K, forall k, (K <= k)%nat -> source_compile chr0 k (program es) = Ok (m, t))
    /\ forall k m' t', source_compile chr0 k (program es) = Ok (m', t') -> m' = m /\ t' = t.
Proof.
  intros ((L & WF) & _ & ND & _) FW. exists (c_f (cprog es)), (c_tbl (cprog es)). split.
  - exists (S (dep_all es)). intros k K. eapply compile_total; eassumption.
  - intros k m t E. eapply source_compile_eq; eassumption.
Qed.

(** Compile and run: for a program that compiles to tables within the limits of
    the bytecode format, execution gives what the source means. *)
Theorem C47_compile_and_run {W} (H : host W) chr0 is_str STR0 es :
  program_ok chr0 is_str es -> few_all es = true ->
  ((forall w v, h_isref H w v = false) \/
   (forall l ps b, In (l, (ps, b)) (fns_all es) -> forall x, In x (sets_all b) -> memb x ps = true)) ->
  exists m t, (exists K, forall k, (K <= k)%nat -> source_compile chr0 k (program es) = Ok (m, t))
    /\ forall d self w w' v, fits (t ++ [m]) d -> truth self = true -> means H es d self w w' v ->
       returns H (t ++ [m]) is_str STR0 (zlen t) self w w' v.
Proof.
  intros PO FW HL. destruct (C46_every_program_compiles _ _ _ PO FW) as (m & t & (K & KK) & _). exists m, t. split; [exists K; exact KK|].
  intros d self w w' v FT TS ME. eapply C47_programs_with_functions; try eassumption. apply (KK K). lia.
Qed.

(** the hypotheses hold of the examples *)
Example few_case : few_all ex_loop = true /\ few_all ex_fact = true /\ few_all ex_counter = true.
Proof. vm_compute. auto. Qed.

(** A loop with 1025 breaks: the compiler writes past its table of pending jumps. *)
Definition bad_breaks : exps := L [ELoop (L (repeat EBreak 1025))].
Theorem C46_many_breaks_refuted : program_ok lower toy_str bad_breaks /\ source_compile lower 100 (program bad_breaks) = UB.
Proof. split; [prog|vm_compute; reflexivity]. Qed.
Example enough_breaks : exists r, source_compile lower 100 (program (L [ELoop (L (repeat EBreak 1024))])) = Ok r.
Proof. eexists. vm_compute. reflexivity. Qed.
