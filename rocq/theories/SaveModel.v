(** The compiled functions of CompileModel as the dump format sees them (DumpModel), and
    the functions a loaded tree stands for.

    CompileModel and VmModel keep the functions of a program in a table and constants as
    value words; DumpModel has a tree of functions with their bytes.  A string constant is
    the word of an interned string: [content] gives the bytes of such a word, [intern] the
    word of the string with given bytes (potion_str2 while loading; C26). *)
From Verif Require Import Base Arr GArr WordModel AsmModel CompileModel VmModel DumpModel.

(** opcodes.h 10-61 *)
Definition opcodes : list opc :=
  [O_NONE; O_MOVE; O_LOADK; O_LOADPN; O_SELF; O_NEWTUPLE; O_GETTUPLE; O_SETTUPLE;
   O_GETLOCAL; O_SETLOCAL; O_GETUPVAL; O_SETUPVAL; O_GLOBAL; O_GETTABLE; O_SETTABLE;
   O_NEWLICK; O_GETPATH; O_SETPATH; O_ADD; O_SUB; O_MULT; O_DIV; O_REM; O_POW;
   O_NOT; O_CMP; O_EQ; O_NEQ; O_LT; O_LTE; O_GT; O_GTE; O_BITN; O_BITL; O_BITR;
   O_DEF; O_BIND; O_MSG; O_JMP; O_TEST; O_TESTJMP; O_NOTJMP; O_NAMED; O_CALL;
   O_CALLSET; O_TAILCALL; O_RETURN; O_PROTO; O_CLASS; O_DEBUG].
Definition opc_dec (a b : opc) : {a = b} + {a <> b}. Proof. decide equality. Defined.
Fixpoint index (o : opc) (l : list opc) : Z :=
  match l with [] => 0 | x :: l => if opc_dec x o then 0 else 1 + index o l end.
Definition opnum (o : opc) : Z := index o opcodes.
Definition opof (n : Z) : opc := nth (Z.to_nat n) opcodes O_NONE.

(** opcodes.h 74-83: the code buffer as the bytes of its PN_OPs, and read as PN_OPs *)
Definition enc_instr (i : instr) : list Z := le 4 (op_word (opnum (ic i)) (ia i) (ib i)).
Definition enc (l : list instr) : list Z := concat (map enc_instr l).
Definition dec_instr (b : list Z) : instr :=
  let w := op_unword (unle b) in mkI (opof (ocode w)) (oa w) (ob w).
Fixpoint dec (b : list Z) : list instr :=
  match b with
  | b0 :: b1 :: b2 :: b3 :: b => dec_instr [b0; b1; b2; b3] :: dec b
  | _ => []
  end.

Section Words.
  Variable content : Z -> option (list Z).
  Variable intern : list Z -> Z.
  (** how WRITE_CONST sees a value word (compile.c 1195-1211; no doubles) *)
  Definition cval_of (w : Z) : cval :=
    match content w with Some s => CStr s | None => if PN_IS_PTR w then CObj w else CImm w end.
  (** and the word READ_CONST makes of what it read *)
  Definition word_of (v : cval) : Z :=
    match v with CStr s => intern s | CImm w => w | _ => PN_NIL end.

  (** the tree of a function of the table [T]; the name does not matter to the VM.
      f->stack is PN_NUM of the number of registers (compile.c 185-186, 1057) *)
  Inductive saves (T : list pb) (name : cval) : bool -> pb -> proto -> Prop :=
  | Saves top f ps :
      Forall2 (fun id q => exists g, gnth T id = Some g /\ saves T name false g q) (b_protos f) ps ->
      saves T name top f
        (mkProto name (if top then CImm PN_NIL else CUp) (map cval_of (b_sig f)) (CImm (PN_NUM (b_stack f)))
           (map cval_of (b_values f)) (map cval_of (b_paths f)) (map cval_of (b_locals f)) (map cval_of (b_upvals f))
           ps (enc (b_code f)) (zlen (b_locals f)) (zlen (b_upvals f)) (zlen (b_paths f))).

  (** the table of functions a loaded tree stands for: nested functions first, as in the
      table of the compiler; [base] functions are there already *)
  Definition stack_of (v : cval) : Z := match v with CImm w => PN_INT w | _ => 0 end.
  Fixpoint install (base : Z) (p : proto) : list pb :=
    let ct := (fix go (base : Z) (l : list proto) : list pb * list Z :=
                 match l with
                 | [] => ([], [])
                 | q :: l => let tq := install base q in
                             let (t, ids) := go (base + zlen tq) l in
                             (tq ++ t, (base + zlen tq - 1) :: ids)
                 end) base (pprotos p) in
    fst ct ++ [mkPb (dec (pasm p)) (map word_of (pvalues p)) (map word_of (plocals p)) (map word_of (pupvals p))
                 (map word_of (ppaths p)) (snd ct) (map word_of (psig p)) (stack_of (pstack p))].
End Words.
