(** Model of the bytecode compiler: core/compile.c (potion_source_asmb,
    potion_arg_asmb, potion_source_compile, potion_sig_compile) over the syntax
    trees the parser builds (core/syntax.y, core/ast.h).

    - A syntax tree is a [src]: a part and up to three fields, each nil, a value
      (an immediate or a pointer to a string / number), a tuple of trees or a
      tree.  nil is the null field.
    - A function under construction is a [pb]; the compiler works on one and may
      touch the enclosing ones (PN_UPVAL), so the state carries the chain.
    - Instructions are kept decoded.  potion_asm_op stores [a] and [b] in 12-bit
      signed fields, so emission truncates them with [sx12] (AsmModel proves that
      encoding then decoding is this truncation).
    - Constant and local tables are lists; PN_PUT / PN_GET are [vput] / [vfind].
    - Registers are u8: a register number is reduced modulo 256 where the C code
      passes it as a u8 argument or stores it in a u8 variable.
    - A syntax error, and reading a field with a shape the C code does not expect,
      is [UB].  EXEC_DEBUG (OP_DEBUG) and extern are not modelled. *)
From Verif Require Import Base Arr GArr WordModel AsmModel.

(** opcodes.h 10-61 *)
Inductive opc :=
| O_NONE | O_MOVE | O_LOADK | O_LOADPN | O_SELF | O_NEWTUPLE | O_GETTUPLE | O_SETTUPLE
| O_GETLOCAL | O_SETLOCAL | O_GETUPVAL | O_SETUPVAL | O_GLOBAL | O_GETTABLE | O_SETTABLE
| O_NEWLICK | O_GETPATH | O_SETPATH | O_ADD | O_SUB | O_MULT | O_DIV | O_REM | O_POW
| O_NOT | O_CMP | O_EQ | O_NEQ | O_LT | O_LTE | O_GT | O_GTE | O_BITN | O_BITL | O_BITR
| O_DEF | O_BIND | O_MSG | O_JMP | O_TEST | O_TESTJMP | O_NOTJMP | O_NAMED | O_CALL
| O_CALLSET | O_TAILCALL | O_RETURN | O_PROTO | O_CLASS | O_DEBUG.
Record instr := mkI { ic : opc; ia : Z; ib : Z }.

(** ast.h / potion.h: the parts of a PNSource *)
Inductive part :=
| CODE | VALUE | ASSIGN | NOT | WAVY | OR | AND | PLUS | MINUS | TIMES | DIV | REM | POW
| CMP | EQ | NEQ | LT | LTE | GT | GTE | BITL | BITR | INC | PIPE | CARET | AMP
| MSG | QUERY | PATH | PATHQ | EXPR | LIST | BLOCK | LICK | PROTO.
Definition part_eqb (p q : part) : bool.
Proof. refine (if (_ : {p = q} + {p <> q}) then true else false). decide equality. Defined.
Inductive src : Type := Src (p : part) (a0 a1 a2 : sf)
with sf : Type := SNil | SVal (v : Z) | STup (l : list src) | SSrc (s : src).
Definition sp (s : src) : part := let (p, _, _, _) := s in p.
Definition s0 (s : src) : sf := let (_, a, _, _) := s in a.
Definition s1 (s : src) : sf := let (_, _, a, _) := s in a.
Definition s2 (s : src) : sf := let (_, _, _, a) := s in a.
Definition is_nil (f : sf) : bool := match f with SNil => true | _ => false end.
(** PN_PART of a field that must be a tree *)
Definition part_of (f : sf) : option part := match f with SSrc s => Some (sp s) | _ => None end.
Definition is_part (p : part) (f : sf) : bool :=
  match f with SSrc s => part_eqb (sp s) p | _ => false end.

(** the keyword strings (internal.c 105-120); interned at start-up, here some
    fixed distinct addresses *)
Definition PN_if : Z := 65536.
Definition PN_elsif : Z := 65552.
Definition PN_else : Z := 65568.
Definition PN_while : Z := 65584.
Definition PN_loop : Z := 65600.
Definition PN_return : Z := 65616.
Definition PN_break : Z := 65632.
Definition PN_continue : Z := 65648.
Definition PN_self : Z := 65664.
Definition PN_class : Z := 65680.
Definition PN_extern : Z := 65696.
Definition keywords : list Z :=
  [PN_if; PN_elsif; PN_else; PN_while; PN_loop; PN_return; PN_break; PN_continue;
   PN_self; PN_class; PN_extern].

(** struct PNProto (potion.h 470-492): one function.  [b_protos] holds indices
    into the table of compiled functions (in C: pointers). *)
Record pb := mkPb {
  b_code : list instr; b_values : list Z; b_locals : list Z; b_upvals : list Z;
  b_paths : list Z; b_protos : list Z; b_sig : list Z; b_stack : Z }.
Definition pb0 (sig locals : list Z) : pb := mkPb [] [] locals [] [] [] sig 1.
Definition set_code f c := mkPb c (b_values f) (b_locals f) (b_upvals f) (b_paths f) (b_protos f) (b_sig f) (b_stack f).
Definition set_values f v := mkPb (b_code f) v (b_locals f) (b_upvals f) (b_paths f) (b_protos f) (b_sig f) (b_stack f).
Definition set_locals f v := mkPb (b_code f) (b_values f) v (b_upvals f) (b_paths f) (b_protos f) (b_sig f) (b_stack f).
Definition set_upvals f v := mkPb (b_code f) (b_values f) (b_locals f) v (b_paths f) (b_protos f) (b_sig f) (b_stack f).
Definition set_paths f v := mkPb (b_code f) (b_values f) (b_locals f) (b_upvals f) v (b_protos f) (b_sig f) (b_stack f).
Definition set_protos f v := mkPb (b_code f) (b_values f) (b_locals f) (b_upvals f) (b_paths f) v (b_sig f) (b_stack f).
Definition set_stack f v := mkPb (b_code f) (b_values f) (b_locals f) (b_upvals f) (b_paths f) (b_protos f) (b_sig f) v.

(** compile-time state: the function being compiled, the enclosing ones
    (innermost first; f->source), the functions finished so far, and struct
    PNLoop (compile.c 255-263) or NULL *)
Record cst := mkC { c_f : pb; c_up : list pb; c_tbl : list pb; c_loop : option (list Z * list Z) }.
Definition onf (g : pb -> pb) (c : cst) : cst := mkC (g (c_f c)) (c_up c) (c_tbl c) (c_loop c).
Definition set_loop (l : option (list Z * list Z)) (c : cst) : cst := mkC (c_f c) (c_up c) (c_tbl c) l.

Definition u8 (x : Z) : Z := x mod 256.
(** compile.c 184-186 PN_REG *)
Definition PN_REG (reg : Z) : cst -> cst :=
  onf (fun f => if b_stack f <=? reg then set_stack f (reg + 1) else f).
(** asm.h PN_ASM1 / PN_ASM2 = potion_asm_op (asm.c 44-55) *)
Definition asm2 (o : opc) (a b : Z) : cst -> cst :=
  onf (fun f => set_code f (b_code f ++ [mkI o (sx12 a) (sx12 b)])).
Definition asm1 (o : opc) (a : Z) : cst -> cst := asm2 o a 0.
(** PN_OP_LEN(f->asmb) *)
Definition oplen (c : cst) : Z := zlen (b_code (c_f c)).
(** PN_OP_AT(f->asmb, j).b = v  and  .a = v *)
Definition seti (l : list instr) (j : Z) (g : instr -> instr) : list instr :=
  match gnth l j with Some i => gupd l j (g i) | None => l end.
Definition patch_b (j v : Z) : cst -> cst :=
  onf (fun f => set_code f (seti (b_code f) j (fun i => mkI (ic i) (ia i) (sx12 v)))).
Definition patch_a (j v : Z) : cst -> cst :=
  onf (fun f => set_code f (seti (b_code f) j (fun i => mkI (ic i) (sx12 v) (ib i)))).
Definition put_value (v : Z) (c : cst) : cst * Z :=
  let (vs, n) := vput (b_values (c_f c)) v in (onf (fun f => set_values f vs) c, n).
Definition put_local (v : Z) (c : cst) : cst * Z :=
  let (vs, n) := vput (b_locals (c_f c)) v in (onf (fun f => set_locals f vs) c, n).
Definition put_path (v : Z) (c : cst) : cst :=
  onf (fun f => set_paths f (fst (vput (b_paths f) v))) c.

(** compile.c 216-235, the search for the enclosing function that owns [name]:
    the number of functions whose upvals get the name *)
Fixpoint find_owner (ups : list pb) (name : Z) : option nat :=
  match ups with
  | [] => None
  | u :: ups' => match vfind (b_locals u) name with
                 | Some _ => Some O
                 | None => option_map S (find_owner ups' name)
                 end
  end.
Definition push_upval (name : Z) (f : pb) : pb := set_upvals f (b_upvals f ++ [name]).
Fixpoint push_first (n : nat) (name : Z) (l : list pb) : list pb :=
  match n, l with S n', f :: l' => push_upval name f :: push_first n' name l' | _, _ => l end.
(** compile.c 210-238 PN_UPVAL: index of the upvalue, None for PN_NONE *)
Definition PN_UPVAL (name : Z) (c : cst) : cst * option Z :=
  match vfind (b_locals (c_f c)) name with
  | Some _ => (c, None)
  | None =>
    match vfind (b_upvals (c_f c)) name with
    | Some i => (c, Some i)
    | None =>
      match find_owner (c_up c) name with
      | None => (c, None)
      | Some k =>
          let c' := mkC (push_upval name (c_f c)) (push_first k name (c_up c)) (c_tbl c) (c_loop c) in
          (c', vfind (b_upvals (c_f c')) name)
      end
    end
  end.

Section Compile.
  (** first byte of a string *)
  Context (chr0 : Z -> Z).
  (** compile.c 446-447 *)
  Definition isupper (name : Z) : bool :=
    let c := chr0 name in (c mod 256 <? 128) && (65 <=? c) && (c <=? 90).

  (** compile.c 918-927 SIG_EXPR_MSG: the name declared by an argument *)
  Definition sig_name (e : sf) : res (list Z) :=
    match e with
    | SSrc (Src EXPR (STup (Src MSG (SVal n) _ _ :: _)) _ _) => Ok [n]
    | SSrc (Src EXPR (STup (_ :: _)) _ _) => Ok []
    | SSrc (Src EXPR _ _ _) => UB
    | SSrc _ => Ok []
    | _ => UB
    end.
  (** compile.c 949-1030 potion_sig_compile: (signature, locals).  Modelled: plain
      names, name=T, name:=value, name|name, name|name=T; other shapes (computed
      names, x=N|y=o) are left out (UB here). *)
  Fixpoint sig_items (l : list src) (sig locals : list Z) : res (list Z * list Z) :=
    match l with
    | [] => Ok (sig, locals)
    | e :: l' =>
        do it <- (match e with
          | Src EXPR _ _ _ => do n <- sig_name (SSrc e); Ok (n, n)
          | Src PIPE a b _ => do n <- sig_name a; do n2 <- sig_name b;
                              Ok (n ++ [PN_NUM 124] ++ n2, n ++ n2)
          | Src ASSIGN (SSrc lhs) (SSrc rhs) _ =>
              do h <- (match lhs with
                | Src EXPR (STup [_]) _ _ => do n <- sig_name (SSrc lhs); Ok (n, n, rhs)
                | Src PIPE a (SSrc b) _ => do n <- sig_name a; Ok (n ++ [PN_NUM 124], n, b)
                | _ => UB end);
              let '(s, ns, rhs) := h in
              match rhs with
              | Src EXPR (STup [Src MSG (SVal t) _ _]) _ _ => Ok (s ++ [PN_NUM (chr0 t)], ns)
              | Src EXPR (STup [_]) _ _ => Ok (s, ns)
              | Src VALUE (SVal v) _ _ => Ok (s ++ [PN_NUM 58; v], ns)
              | Src VALUE SNil _ _ => Ok (s ++ [PN_NUM 58; PN_NIL], ns)
              | _ => UB
              end
          | _ => UB
          end);
        sig_items l' (sig ++ fst it) (fold_left (fun ls n => fst (vput ls n)) (snd it) locals)
    end.
  Definition sig_compile (sig : sf) : res (list Z * list Z) :=
    match sig with
    | SNil => Ok ([], [])
    | SSrc (Src LIST (STup l) _ _) => sig_items l [] []
    | SSrc _ => Ok ([], [])
    | _ => UB
    end.

  Section Node.
    (** the recursive call potion_source_asmb(P, f, loop, count, t, reg) *)
    Context (rec : Z -> src -> Z -> cst -> res cst).

    (** PN_TUPLE_EACH with count 0, and with count = i *)
    Fixpoint each (l : list src) (reg : Z) (c : cst) : res cst :=
      match l with [] => Ok c | t :: l' => do c <- rec 0 t reg c; each l' reg c end.
    Fixpoint each_i (i : Z) (l : list src) (reg : Z) (c : cst) : res cst :=
      match l with [] => Ok c | t :: l' => do c <- rec i t reg c; each_i (i + 1) l' reg c end.
    Definition tup (f : sf) : res (list src) :=
      match f with SNil => Ok [] | STup l => Ok l | _ => UB end.

    (** compile.c 187-197 PN_ARG *)
    Definition PN_ARG (a : sf) (reg : Z) (c : cst) : res cst :=
      match a with
      | SSrc (Src EXPR (STup (Src LIST ls _ _ :: _)) _ _) =>
          do l <- tup ls; each l reg c
      | SSrc t => rec 0 t reg c
      | _ => UB
      end.

    (** compile.c 1046-1077 potion_source_compile of a nested function (its
        enclosing function is c_f c) followed by 198-209 PN_BLOCK *)
    Fixpoint captures (ups : list Z) (reg : Z) (c : cst) : cst :=
      match ups with
      | [] => c
      | v :: ups' =>
          captures ups' reg
            (match vfind (b_upvals (c_f c)) v with
             | Some n => asm2 O_GETUPVAL reg n c
             | None => asm2 O_GETLOCAL reg
                         (match vfind (b_locals (c_f c)) v with Some n => n | None => -1 end) c
             end)
      end.
    Definition PN_BLOCK (reg : Z) (blk : sf) (sig : sf) (c : cst) : res cst :=
      match blk with
      | SSrc (Src p a0 a1 a2) =>
          if part_eqb p CODE || part_eqb p BLOCK then
            do sl <- sig_compile sig;
            do c1 <- rec 0 (Src p a0 a1 a2) 0
                       (mkC (pb0 (fst sl) (snd sl)) (c_f c :: c_up c) (c_tbl c) None);
            let g := c_f (asm1 O_RETURN 0 c1) in
            match c_up c1 with
            | f :: up =>
                let pid := zlen (c_tbl c1) in
                let (ps, num) := vput (b_protos f) pid in
                Ok (captures (b_upvals g) reg
                      (asm2 O_PROTO reg num
                         (mkC (set_protos f ps) up (c_tbl c1 ++ [g]) (c_loop c))))
            | [] => UB
            end
          else UB
      | _ => UB
      end.

    (** compile.c 352-356 and 401-404: a literal; also 294-300 *)
    Definition load_value (v reg : Z) (c : cst) : cst :=
      if negb (PN_IS_PTR v) && (v =? u64 (sx12 v)) then asm2 O_LOADPN reg v c
      else let (c, n) := put_value v c in asm2 O_LOADK reg n c.
    Definition val_of (f : sf) : res Z :=
      match f with SNil => Ok PN_NIL | SVal v => Ok v | _ => UB end.

    (** compile.c 268-320 potion_arg_asmb; returns the updated register *)
    Fixpoint arg_each (inc : bool) (freg sreg : Z) (l : list src) (reg : Z) (c : cst) : res (cst * Z) :=
      match l with
      | [] => Ok (c, reg)
      | v :: l' =>
          let reg := if inc then u8 (reg + 1) else reg in
          do c <- (match inc, v with
            | true, Src ASSIGN (SSrc lhs) (SSrc rhs) _ =>
                do c <- rec 0 rhs (u8 (sreg + 1)) c;
                do c <- (match lhs with
                  | Src EXPR (STup [lhs1]) _ _ =>
                      if part_eqb (sp lhs1) MSG || part_eqb (sp lhs1) VALUE then
                        do v <- val_of (s0 lhs1);
                        Ok (load_value v sreg c)
                      else rec 0 lhs1 sreg c
                  | _ => rec 0 lhs sreg c
                  end);
                Ok (PN_REG (sreg + 1) (asm2 O_NAMED (freg - 1) (sreg + 1) c))
            | _, _ => rec 0 v reg c
            end);
          arg_each inc freg sreg l' reg c
      end.
    Definition arg_asmb (args : sf) (reg : Z) (inc : bool) (c : cst) : res (cst * Z) :=
      match args with
      | SNil => let reg := if inc then u8 (reg + 1) else reg in
                Ok (asm2 O_LOADPN reg PN_NIL c, reg)
      | SSrc (Src LIST SNil _ _) => Ok (c, reg)
      | SSrc (Src LIST (STup l) _ _) => arg_each inc reg (u8 (reg + zlen l + 1)) l reg c
      | SSrc (Src LIST _ _ _) => UB
      | SSrc t => let reg := if inc then u8 (reg + 1) else reg in
                  do c <- rec 0 t reg c; Ok (c, reg)
      | _ => UB
      end.

    (** compile.c 352-421 AST_VALUE.  The trailing call (a1 present) is reached by
        no tree of the parser except for tuple access and is not modelled. *)
    Definition node_value (t : src) (reg : Z) (c : cst) : res cst :=
      match s0 t with
      | SSrc (Src LICK (SSrc (Src MSG (SVal tpl) _ _))
                  (SSrc (Src _ (STup (Src _ key _ _ :: _)) _ _)) _) =>
          let (c, num) := PN_UPVAL tpl c in
          let c := match num with
                   | Some n => asm2 O_GETUPVAL reg n c
                   | None => let (c, n) := put_local tpl c in asm2 O_GETLOCAL reg n c
                   end in
          match key with
          | SVal k =>
              let (c, n) := put_local k c in
              let c := asm2 O_GETLOCAL (reg + 1) n c in
              Ok (PN_REG (reg + 1) (asm2 O_GETTUPLE reg (Z.lor (reg + 1) ASM_TPL_IMM) c))
          | SSrc (Src VALUE k _ _) =>
              do k <- val_of k;
              if PN_IS_INT k then
                if (ASM_TPL_IMM <=? PN_INT k) || (PN_INT k <? 0) then
                  let (c, n) := put_value k c in
                  Ok (asm2 O_GETTUPLE reg (reg + 1) (PN_REG (reg + 1) (asm2 O_LOADK (reg + 1) n c)))
                else Ok (asm2 O_GETTUPLE reg (PN_INT k) c)
              else
                let (c, n) := put_value k c in
                Ok (PN_REG (reg + 1) (asm2 O_GETTABLE reg (reg + 1) (asm2 O_LOADK (reg + 1) n c)))
          | _ => UB
          end
      | a => if is_nil (s1 t) then do v <- val_of a; Ok (load_value v reg c) else UB
      end.

    (** compile.c 423-525 AST_ASSIGN: how the target is prepared; returns opcode,
        num and breg *)
    Definition assign_target (lhs : src) (cnt reg : Z) (c : cst) : res (cst * opc * Z * Z) :=
      match lhs with
      | Src MSG (SVal n) _ _ | Src QUERY (SVal n) _ _ =>
          if isupper n then
            let (c, num) := put_value n c in
            Ok (asm2 O_LOADK reg num c, O_GLOBAL, u8 (reg + 1), u8 (reg + 1))
          else if cnt =? 0 then
            let (c, num) := PN_UPVAL n c in
            match num with
            | Some num => Ok (c, O_GETUPVAL, num, reg)
            | None => let (c, num) := put_local n c in Ok (c, O_GETLOCAL, num, reg)
            end
          else
            let (c, num) := put_value n c in
            Ok (asm2 O_LOADK (u8 (reg + 1)) num c, O_DEF, u8 (u8 (reg + 1) + 1), u8 (u8 (reg + 1) + 1))
      | Src PATH (SVal n) _ _ | Src PATHQ (SVal n) _ _ =>
          let (c, num) := put_value n c in
          let c := if cnt =? 0 then asm1 O_SELF reg (put_path (PN_NUM num) c) else c in
          Ok (asm2 O_LOADK (u8 (reg + 1)) num c, O_GETPATH, u8 (u8 (reg + 1) + 1), u8 (u8 (reg + 1) + 1))
      | _ => UB
      end.
    Definition is_query (lhs : src) : bool := part_eqb (sp lhs) QUERY.
    Definition is_pathq (lhs : src) : bool := part_eqb (sp lhs) PATHQ.
    Definition assign_store (lhs : src) (o : opc) (num breg reg : Z) (c : cst) : cst :=
      match o with
      | O_GETUPVAL =>
          let c := if is_query lhs then asm2 O_TESTJMP breg 1 (asm2 O_GETUPVAL breg num c) else c in
          asm2 O_SETUPVAL reg num c
      | O_GETLOCAL =>
          if is_query lhs then asm2 O_TESTJMP breg 1 (asm2 O_GETLOCAL breg num c)
          else asm2 O_SETLOCAL reg num c
      | O_GETPATH =>
          let c := if is_pathq lhs then asm2 O_TESTJMP reg 1 (asm2 O_GETPATH reg num c) else c in
          asm2 O_SETPATH reg num c
      | _ => asm2 o reg num c
      end.
    Definition node_assign (t : src) (count reg : Z) (c : cst) : res cst :=
      match s0 t, s1 t with
      | SSrc lhs0, SSrc rhs =>
          do x <- (match lhs0 with
            | Src EXPR (STup l) _ _ =>
                match rev l with
                | [] => UB
                | last :: pre => do c <- each_i 0 (rev pre) reg c; Ok (c, last, zlen l - 1)
                end
            | Src EXPR _ _ _ => UB
            | _ => Ok (c, lhs0, count)
            end);
          let '(c, lhs, cnt) := x in
          do y <- assign_target lhs cnt reg c;
          let '(c, o, num, breg) := y in
          if is_nil (s1 lhs) then
            do c <- rec 0 rhs breg c;
            Ok (PN_REG breg (assign_store lhs o num breg reg c))
          else
            let breg := u8 (reg + 1) in
            let c := asm2 O_CALLSET reg breg (asm2 o breg num c) in
            do cb <- arg_asmb (s1 lhs) breg true c;
            let (c, breg) := (cb : cst * Z) in
            let breg := u8 (breg + 1) in
            do c <- rec 0 rhs breg c;
            Ok (PN_REG breg (asm2 O_CALL reg breg c))
      | _, _ => UB
      end.

    (** compile.c 527-552 AST_INC *)
    Definition node_inc (t : src) (reg : Z) (c : cst) : res cst :=
      match s0 t, s1 t with
      | SSrc (Src _ (SVal n) _ _), SVal d =>
          let (c, up) := PN_UPVAL n c in
          let '(c, num, get, set) :=
            match up with
            | Some num => (c, num, O_GETUPVAL, O_SETUPVAL)
            | None => let (c, num) := put_local n c in (c, num, O_GETLOCAL, O_SETLOCAL)
            end in
          let c := asm2 get reg num c in
          let (c, breg) := if PN_IS_INT d then (asm2 O_MOVE (u8 (reg + 1)) reg c, u8 (reg + 1)) else (c, reg) in
          let c := asm2 O_LOADPN (breg + 1) (Z.lor d 1) c in
          let c := asm2 O_ADD breg (breg + 1) c in
          let c := asm2 set breg num c in
          Ok (PN_REG (breg + 1) c)
      | _, _ => UB
      end.

    (** compile.c 554-583 *)
    Definition binop_of (p : part) : option opc :=
      match p with
      | CMP => Some O_CMP | EQ => Some O_EQ | NEQ => Some O_NEQ | GTE => Some O_GTE
      | GT => Some O_GT | LT => Some O_LT | LTE => Some O_LTE | PLUS => Some O_ADD
      | MINUS => Some O_SUB | TIMES => Some O_MULT | DIV => Some O_DIV | REM => Some O_REM
      | POW => Some O_POW | BITL => Some O_BITL | BITR => Some O_BITR
      | _ => None
      end.
    Definition node_bin (o : opc) (t : src) (reg : Z) (c : cst) : res cst :=
      do c <- PN_ARG (s0 t) reg c;
      do c <- PN_ARG (s1 t) (u8 (reg + 1)) c;
      Ok (asm2 o reg (reg + 1) c).

    (** compile.c 590-598 AST_AND, AST_OR *)
    Definition node_andor (o : opc) (t : src) (reg : Z) (c : cst) : res cst :=
      do c <- PN_ARG (s0 t) reg c;
      let jmp := oplen c in
      let c := asm2 o reg 0 c in
      do c <- PN_ARG (s1 t) reg c;
      Ok (patch_b jmp (oplen c - jmp - 1) c).

    (** compile.c 607-618 if *)
    Definition msg_if (t : src) (reg : Z) (c : cst) : res cst :=
      if is_nil (s1 t) then UB else
      do cb <- arg_asmb (s1 t) (u8 (reg + 1)) false c;
      let (c, breg) := (cb : cst * Z) in
      let jmp := oplen c in
      let c := asm2 O_NOTJMP breg 0 c in
      match s2 t with
      | SSrc body =>
          do c <- rec 0 body reg c;
          Ok (PN_REG breg (patch_b jmp (oplen c - jmp - 1) c))
      | _ => UB
      end.
    (** compile.c 619-633 elsif *)
    Definition msg_elsif (t : src) (reg : Z) (c : cst) : res cst :=
      let jmp1 := oplen c in
      let c := asm2 O_TESTJMP (u8 (reg + 1)) 0 c in
      if is_nil (s1 t) then UB else
      do cb <- arg_asmb (s1 t) (u8 (reg + 1)) false c;
      let (c, breg) := (cb : cst * Z) in
      let jmp2 := oplen c in
      let c := asm2 O_NOTJMP breg 0 c in
      match s2 t with
      | SSrc body =>
          do c <- rec 0 body reg c;
          Ok (PN_REG breg (patch_b jmp2 (oplen c - jmp2 - 1) (patch_b jmp1 (oplen c - jmp1 - 1) c)))
      | _ => UB
      end.
    (** compile.c 634-640 else *)
    Definition msg_else (t : src) (reg : Z) (c : cst) : res cst :=
      let jmp := oplen c in
      let c := asm2 O_TESTJMP (u8 (reg + 1)) 0 c in
      match s2 t with
      | SSrc body =>
          do c <- rec 0 body reg c;
          Ok (PN_REG (u8 (reg + 1)) (patch_b jmp (oplen c - jmp - 1) c))
      | _ => UB
      end.
    (** compile.c 641-659 class; the constructor body gets [self] appended (a body
        without statements makes the C code push onto a PNSource: UB) *)
    Definition msg_class (t : src) (count reg : Z) (c : cst) : res cst :=
      let c := if count =? 0 then asm1 O_SELF reg c else c in
      match s2 t with
      | SNil => Ok (PN_REG reg (asm2 O_CLASS reg reg c))
      | SSrc (Src p (STup l) a1 a2) =>
          let blk := Src p (STup (l ++ [Src EXPR (STup [Src MSG (SVal PN_self) SNil SNil]) SNil SNil])) a1 a2 in
          do c <- PN_BLOCK (u8 (reg + 1)) (SSrc blk) (s1 t) c;
          Ok (PN_REG reg (asm2 O_CLASS reg (u8 (reg + 1)) c))
      | _ => UB
      end.
    (** compile.c 703-737 while, loop.  [bjmps] and [cjmps] hold 1024 entries. *)
    Definition MAX_JUMPS : Z := 1024.
    Definition patch_all (l : list Z) (target : Z) (c : cst) : cst :=
      fold_left (fun c j => patch_a j (target - j - 1) c) l c.
    Definition msg_while (is_while : bool) (t : src) (reg : Z) (c : cst) : res cst :=
      let jmp2 := oplen c in
      do x <- (if is_while then
                 do cb <- arg_asmb (s1 t) (u8 (reg + 1)) false c;
                 let (c, breg) := (cb : cst * Z) in
                 Ok (asm2 O_NOTJMP breg 0 c, breg, oplen c)
               else Ok (c, u8 (reg + 1), 0));
      let '(c, breg, jmp1) := x in
      match s2 t with
      | SSrc body =>
          let outer := c_loop c in
          do c <- rec 0 body reg (set_loop (Some ([], [])) c);
          match c_loop c with
          | Some (bs, cs) =>
              let c := asm1 O_JMP (jmp2 - oplen c - 1) c in
              let c := if is_while then patch_b jmp1 (oplen c - jmp1 - 1) c else c in
              let c := patch_all bs (oplen c) c in
              let c := patch_all cs jmp2 c in
              Ok (PN_REG breg (set_loop outer c))
          | None => UB
          end
      | _ => UB
      end.
    Definition msg_break (reg : Z) (c : cst) : res cst :=
      match c_loop c with
      | Some (bs, cs) =>
          if zlen bs <? MAX_JUMPS then
            Ok (PN_REG reg (asm1 O_JMP 0 (set_loop (Some (bs ++ [oplen c], cs)) c)))
          else UB
      | None => UB
      end.
    Definition msg_continue (reg : Z) (c : cst) : res cst :=
      match c_loop c with
      | Some (bs, cs) =>
          if zlen cs <? MAX_JUMPS then
            Ok (PN_REG reg (asm1 O_JMP 0 (set_loop (Some (bs, cs ++ [oplen c])) c)))
          else UB
      | None => UB
      end.
    (** compile.c 738-743 return *)
    Definition msg_return (t : src) (reg : Z) (c : cst) : res cst :=
      do cb <- arg_asmb (s1 t) reg false c;
      let (c, reg') := (cb : cst * Z) in
      Ok (PN_REG reg (asm1 O_RETURN reg' c)).

    (** compile.c 764-850: a variable, or a message to self (count 0) or to the
        value in [reg] *)
    Definition msg_generic (t : src) (count reg : Z) (c : cst) : res cst :=
      let p := sp t in
      let arg := negb (is_nil (s1 t)) in
      let call := negb (is_nil (s2 t)) || arg in
      do name <- (match s0 t with SNil => Ok None | SVal n => Ok (Some n) | _ => UB end);
      let '(c, num, o) :=
        if (count =? 0) && part_eqb p MSG then
          match name with
          | Some n =>
              let (c, up) := PN_UPVAL n c in
              match up with
              | Some i => (c, Some i, O_GETUPVAL)
              | None => (c, vfind (b_locals (c_f c)) n, O_GETLOCAL)
              end
          | None => (c, None, O_GETLOCAL)
          end
        else (c, None, O_GETUPVAL) in
      match num, name with
      | None, Some n =>
          let breg := u8 (reg + 1) in
          let (c, k) := put_value n c in
          let c := if count =? 0 then asm1 O_SELF breg c else asm2 O_MOVE breg reg c in
          let c := asm2 O_LOADK reg k c in
          do c <- (match s2 t with
            | SSrc (Src MSG (SVal ty) _ _) =>
                let (c, k) := put_value ty c in
                Ok (asm2 O_BIND reg breg (asm2 O_LOADK reg k c))
            | SSrc (Src MSG _ _ _) => UB
            | _ => Ok (asm2 (if call then O_MSG else O_BIND) reg breg c)
            end);
          let jmp := oplen c in
          let c := if part_eqb p QUERY && arg then asm2 O_NOTJMP reg 0 c else c in
          do cb <- (if arg && (is_part VALUE (s1 t) || (is_part LIST (s1 t) && is_nil (s2 t)))
                    then arg_asmb (s1 t) breg true c else Ok (c, breg));
          let (c, breg) := (cb : cst * Z) in
          do cb <- (match s2 t with
            | SSrc (Src PROTO sig blk _) =>
                do c <- PN_BLOCK (u8 (breg + 1)) blk sig c; Ok (c, u8 (breg + 1))
            | _ =>
                do cb <- (if negb call then arg_asmb (s1 t) breg true c else Ok (c, breg));
                let (c, breg) := (cb : cst * Z) in
                if is_part BLOCK (s2 t) then
                  do c <- PN_BLOCK (u8 (breg + 1)) (s2 t) (s1 t) c; Ok (c, u8 (breg + 1))
                else Ok (c, breg)
            end);
          let (c, breg) := (cb : cst * Z) in
          let c :=
            if part_eqb p MSG then asm2 O_CALL reg breg c
            else if arg then
                   let c := asm2 O_CALL reg breg c in patch_b jmp (oplen c - jmp - 1) c
            else asm2 O_TEST reg breg c in
          Ok (PN_REG breg c)
      | _, _ =>
          let c := match num with Some i => asm2 o reg i c | None => c end in
          if call then
            let breg := u8 (reg + 1) in
            let c := asm1 O_SELF breg c in
            do cb <- arg_asmb (s1 t) breg true c;
            let (c, breg) := (cb : cst * Z) in
            do cb <- (if is_nil (s2 t) then Ok (c, breg)
                      else do c <- PN_BLOCK (u8 (breg + 1)) (s2 t) SNil c; Ok (c, u8 (breg + 1)));
            let (c, breg) := (cb : cst * Z) in
            Ok (PN_REG breg (asm2 O_CALL reg breg c))
          else Ok (PN_REG reg c)
      end.

    (** compile.c 601-857 AST_MSG, AST_QUERY *)
    Definition node_msg (t : src) (count reg : Z) (c : cst) : res cst :=
      let kw n := match s0 t with SVal v => (v =? n) && part_eqb (sp t) MSG | _ => false end in
      if kw PN_if then msg_if t reg c
      else if kw PN_elsif then msg_elsif t reg c
      else if kw PN_else then msg_else t reg c
      else if kw PN_class then msg_class t count reg c
      else if kw PN_extern then UB
      else if kw PN_while then msg_while true t reg c
      else if kw PN_loop && is_nil (s1 t) && negb (is_nil (s2 t)) then msg_while false t reg c
      else if kw PN_return then msg_return t reg c
      else if kw PN_break then msg_break reg c
      else if kw PN_continue then msg_continue reg c
      else if kw PN_self then Ok (PN_REG reg (asm1 O_SELF reg c))
      else msg_generic t count reg c.

    (** compile.c 859-874 AST_PATH, AST_PATHQ *)
    Definition node_path (t : src) (count reg : Z) (c : cst) : res cst :=
      match s0 t with
      | SVal n =>
          let (c, num) := put_value n c in
          let c := if count =? 0 then asm1 O_SELF reg (put_path (PN_NUM num) c) else c in
          let c := asm2 O_GETPATH reg (reg + 1) (asm2 O_LOADK (reg + 1) num c) in
          let c := if part_eqb (sp t) PATHQ then asm2 O_TEST reg reg c else c in
          Ok (PN_REG (reg + 1) c)
      | _ => UB
      end.
    (** compile.c 876-890 AST_LICK (with a string as its name) *)
    Definition node_lick (t : src) (reg : Z) (c : cst) : res cst :=
      match s0 t with
      | SVal n =>
          let (c, num) := put_value n c in
          let c := asm2 O_LOADK reg num c in
          do cb <- (match s1 t with
            | SSrc a => do c <- rec 0 a (u8 (reg + 1)) c; Ok (c, u8 (reg + 1))
            | SNil => if is_nil (s2 t) then Ok (c, reg)
                      else Ok (asm2 O_LOADPN (u8 (reg + 1)) PN_NIL c, u8 (reg + 1))
            | _ => UB
            end);
          let (c, breg) := (cb : cst * Z) in
          do cb <- (match s2 t with
            | SSrc a => do c <- rec 0 a (u8 (breg + 1)) c; Ok (c, u8 (breg + 1))
            | SNil => Ok (c, breg)
            | _ => UB
            end);
          let (c, breg) := (cb : cst * Z) in
          Ok (PN_REG breg (asm2 O_NEWLICK reg breg c))
      | _ => UB
      end.
    (** compile.c 892-915 AST_LIST *)
    Fixpoint list_items (l : list src) (reg : Z) (c : cst) : res cst :=
      match l with
      | [] => Ok c
      | v :: l' =>
          do c <- (match v with
            | Src ASSIGN (SSrc lhs) (SSrc rhs) _ =>
                do c <- (match lhs with
                  | Src EXPR (STup [Src MSG (SVal n) _ _]) _ _ =>
                      let (c, num) := put_value n c in Ok (asm2 O_LOADK (reg + 1) num c)
                  | Src EXPR (STup [lhs1]) _ _ => rec 0 lhs1 (u8 (reg + 1)) c
                  | _ => rec 0 lhs (u8 (reg + 1)) c
                  end);
                do c <- rec 0 rhs (u8 (reg + 2)) c;
                Ok (PN_REG (reg + 2) (asm2 O_SETTABLE reg (reg + 2) c))
            | _ =>
                do c <- rec 0 v (u8 (reg + 1)) c;
                Ok (PN_REG (reg + 1) (asm2 O_SETTUPLE reg (reg + 1) c))
            end);
          list_items l' reg c
      end.

    (** compile.c 322-916 potion_source_asmb *)
    Definition node (count : Z) (t : src) (reg : Z) (c : cst) : res cst :=
      let c := PN_REG reg c in
      match sp t with
      | CODE | BLOCK => do l <- tup (s0 t); each l reg c
      | EXPR => do l <- tup (s0 t); each_i 0 l reg c
      | PROTO => PN_BLOCK reg (s1 t) (s0 t) c
      | VALUE => node_value t reg c
      | ASSIGN => node_assign t count reg c
      | INC => node_inc t reg c
      | NOT => do c <- PN_ARG (s0 t) reg c; Ok (asm2 O_NOT reg reg c)
      | WAVY => do c <- PN_ARG (s0 t) reg c; Ok (asm2 O_BITN reg reg c)
      | AND => node_andor O_NOTJMP t reg c
      | OR => node_andor O_TESTJMP t reg c
      | MSG | QUERY => node_msg t count reg c
      | PATH | PATHQ => node_path t count reg c
      | LICK => node_lick t reg c
      | LIST => do l <- tup (s0 t); list_items l reg (asm1 O_NEWTUPLE reg c)
      | p => match binop_of p with
             | Some o => node_bin o t reg c
             | None => Ok c
             end
      end.
  End Node.

  (** potion_source_asmb with an explicit bound on the depth of the tree; [reg] is
      a u8 parameter *)
  Fixpoint asmb (n : nat) (count : Z) (t : src) (reg : Z) (c : cst) : res cst :=
    match n with
    | O => NoFuel
    | S n' => node (asmb n') count t (u8 reg) c
    end.

  (** compile.c 1046-1077 potion_source_compile of a whole program (source and sig
      nil): the main function and the table of the functions it contains *)
  Definition source_compile (n : nat) (t : src) : res (pb * list pb) :=
    if part_eqb (sp t) CODE || part_eqb (sp t) BLOCK then
      do c <- asmb n 0 t 0 (mkC (pb0 [] []) [] [] None);
      Ok (c_f (asm1 O_RETURN 0 c), c_tbl c)
    else UB.
End Compile.
