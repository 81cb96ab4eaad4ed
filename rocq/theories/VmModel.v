(** Model of the bytecode interpreter: potion_vm, core/vm.c 596-951.

    - The C array [stack] is a list of STACK_MAX words; every access is bounds
      checked (outside: UB).  [current] is kept as an index into it.
    - The functions of the program are a table; a PNProto pointer is the index of
      the function in that table.  f->stack, which OP_CALL modifies, is part of
      the state; the rest of a PNProto is fixed.
    - Everything the interpreter asks of the runtime (allocating doubles and
      tuples, object fields, method lookup, native calls, ...) is a [prim]itive of
      an arbitrary host world [W]: [prim p w args] returns the new world and a
      value.  Primitives may fail (UB).
    - Integer arithmetic and comparison is not delegated: it is NumModel's.
    - OP_DEBUG and tracing are not modelled. *)
From Verif Require Import Base Arr GArr WordModel NumModel AsmModel SigModel CompileModel.

(** potion.h 60 *)
Definition STACK_MAX : Z := 4096.

(** calls into the runtime *)
Inductive prim :=
| P_double (op : arith)    (* potion_double(P, x op y): vm.c 389 *)
| P_num (o : opc)          (* potion_obj_add .. bitr on two numbers, not both integers *)
| P_numcmp (o : opc)       (* PN_DBL(a) cmp PN_DBL(b) *)
| P_eq | P_neq             (* potion_vm_eq / potion_vm_neq on a pointer *)
| P_pow                    (* vm.c 754 *)
| P_bitn                   (* potion_obj_bitn *)
| P_tuple | P_push | P_tuple_at | P_table_at | P_table_set | P_lick
| P_obj_get | P_obj_set | P_global | P_def | P_bind | P_message | P_get_callset
| P_object_new | P_ctor | P_get_call | P_call
| P_class | P_not_num      (* the error object of PN_CHECK_NUM *)
| P_sig_error              (* the error object of potion_sig_check *)
| P_sig_find               (* potion_sig_find, as a boxed integer *)
| P_ref | P_deref | P_setref
| P_closure (pid : Z).     (* potion_closure_new(potion_vm_proto) with captured refs *)

(** what OP_CALL distinguishes about the callee (vm.c 803-880): a class, a
    closure over a bytecode function (function index, signature, arity, minargs,
    captured references), another closure (native, jit, ffi) with its signature
    (None when it has none), anything else *)
Inductive kind :=
| KVtable
| KVm (pid : Z) (sig : option (list Z)) (arity minargs : Z) (ups : list Z)
| KNative (sig : option (list Z)) (arity minargs : Z)
| KOther.

Record host (W : Type) := mkHost {
  h_prim : prim -> W -> list Z -> res (W * Z);
  h_kind : W -> Z -> kind;          (* PN_TYPE and the fields of a PNClosure *)
  h_isref : W -> Z -> bool;         (* PN_IS_REF *)
  h_isnum : W -> Z -> bool;         (* PN_IS_NUM *)
  h_isclosure : W -> Z -> bool }.   (* PN_IS_CLOSURE *)
Arguments h_prim {W}. Arguments h_kind {W}. Arguments h_isref {W}.
Arguments h_isnum {W}. Arguments h_isclosure {W}.

(** state of one activation of potion_vm: the stack, [current] - stack, [f],
    [pos], the world, and f->stack of every function *)
Record vst (W : Type) := mkV {
  v_st : list Z; v_cu : Z; v_f : Z; v_pos : Z; v_w : W; v_fs : Z -> Z }.
Arguments mkV {W}. Arguments v_st {W}. Arguments v_cu {W}. Arguments v_f {W}.
Arguments v_pos {W}. Arguments v_w {W}. Arguments v_fs {W}.

(** outcome of one instruction: go on, return from potion_vm, potion_fatal *)
Inductive sres (W : Type) :=
| SRun (s : vst W)
| SDone (w : W) (fs : Z -> Z) (v : Z)
| SFatal.
Arguments SRun {W}. Arguments SDone {W}. Arguments SFatal {W}.

(** vm.c 404-416 (potion.h PN_TEST): nil and false are false *)
Definition PN_TEST (v : Z) : bool := negb (v =? PN_FALSE) && negb (v =? PN_NIL).

Section Vm.
  Context {W : Type} (H : host W) (tbl : list pb) (is_str : Z -> bool) (STR0 : Z).

  Definition proto_at (pid : Z) : res pb := grd tbl pid.
  Definition upvalsize (f : pb) : Z := zlen (b_upvals f).
  Definition localsize (f : pb) : Z := zlen (b_locals f).
  (** vm.c 641-643: index of reg[0] *)
  Definition regbase (cu : Z) (f : pb) : Z := cu + upvalsize f + localsize f + 1.

  Definition upd_fs (fs : Z -> Z) (p v : Z) : Z -> Z := fun q => if q =? p then v else fs q.

  (** where the arguments of the entered function are: nowhere (args == NULL), in
      a tuple, or on the stack from an index on (&reg[a+2]) *)
  Inductive argsrc := ANone | ATuple (l : list Z) | AStack (i : Z).
  Definition arg_at (st : list Z) (a : argsrc) (i : Z) : res Z :=
    match a with
    | ANone => UB
    | ATuple l => rd l i
    | AStack b => rd st (b + i)
    end.
  (** vm.c 648-653 *)
  Fixpoint copy_ups (st : list Z) (at_ : Z) (ups : list Z) : res (list Z) :=
    match ups with
    | [] => Ok st
    | u :: ups' => do st <- wr st at_ u; copy_ups st (at_ + 1) ups'
    end.
  (** vm.c 654-663 *)
  Fixpoint copy_args (f : pb) (locals : Z) (a : argsrc) (argx : Z) (n : nat) (st : list Z) : res (list Z) :=
    match n with
    | O => Ok st
    | S n' =>
        do s <- sig_name_at is_str (b_sig f) argx;
        do st <- (match vfind (b_locals f) s with
                  | Some num => do v <- arg_at st a argx; wr st (locals + num) v
                  | None => Ok st
                  end);
        copy_args f locals a (argx + 1) n' st
    end.
  (** vm.c 635-664: reentry with pos == 0 *)
  Definition enter (st : list Z) (cu pid self : Z) (ups : list Z) (a : argsrc) (w : W) (fs : Z -> Z)
    : res (sres W) :=
    if STACK_MAX <=? cu then Ok SFatal else
    do f <- proto_at pid;
    let locals := cu + upvalsize f in
    let reg := regbase cu f in
    do st <- wr st (reg - 1) self;
    do st <- wr st reg self;
    do st <- copy_ups st cu ups;
    do st <- (match a with
              | ANone => Ok st
              | _ => do ar <- sig_arity is_str (b_sig f); copy_args f locals a 0 (Z.to_nat ar) st
              end);
    Ok (SRun (mkV st cu pid 0 w fs)).

  (** vm.c 596-634: potion_vm called from C *)
  Definition vm_start (pid self : Z) (a : argsrc) (ups : list Z) (w : W) (fs : Z -> Z) : res (sres W) :=
    enter (repeat 0 (Z.to_nat STACK_MAX)) 0 pid self ups a w fs.

  (** the nested activation used by OP_CALL when the stack is nearly used up *)
  Context (nested : Z -> Z -> list Z -> list Z -> W -> (Z -> Z) -> res (W * (Z -> Z) * Z)).

  (** PN_VM_MATH3 (vm.c 384-397) and PN_VM_MATH2 (369-376): inl value, inr error
      object returned from potion_vm *)
  Definition arith_of (o : opc) : arith :=
    match o with
    | O_ADD => Add | O_SUB => Sub | O_MULT => Mul | O_DIV => Div | O_REM => Rem
    | O_BITL => Shl | _ => Shr
    end.
  Definition check_nums (w : W) (a b : Z) (k : res (W * (Z + Z))) : res (W * (Z + Z)) :=
    if negb (h_isnum H w a) then do r <- h_prim H P_not_num w [a]; Ok (fst r, inr (snd r))
    else if negb (h_isnum H w b) then do r <- h_prim H P_not_num w [b]; Ok (fst r, inr (snd r))
    else k.
  Definition math3 (o : opc) (w : W) (a b : Z) : res (W * (Z + Z)) :=
    if PN_IS_INT a && PN_IS_INT b then
      match vm_math3 (arith_of o) a b with
      | NWord v => Ok (w, inl v)
      | NDouble op x y => do r <- h_prim H (P_double op) w [PN_NUM x; PN_NUM y]; Ok (fst r, inl (snd r))
      end
    else check_nums w a b (do r <- h_prim H (P_num o) w [a; b]; Ok (fst r, inl (snd r))).
  Definition math2 (o : opc) (w : W) (a b : Z) : res (W * (Z + Z)) :=
    if PN_IS_INT a && PN_IS_INT b then do v <- vm_math2 (arith_of o) a b; Ok (w, inl v)
    else check_nums w a b (do r <- h_prim H (P_num o) w [a; b]; Ok (fst r, inl (snd r))).
  (** PN_VM_NUMCMP (vm.c 405-412) *)
  Definition cmpop_of (o : opc) : cmpop :=
    match o with O_LT => Lt | O_LTE => Lte | O_GT => Gt | _ => Gte end.
  Definition numcmp (o : opc) (w : W) (a b : Z) : res (W * (Z + Z)) :=
    if PN_IS_INT a && PN_IS_INT b then Ok (w, inl (vm_numcmp (cmpop_of o) a b))
    else check_nums w a b (do r <- h_prim H (P_numcmp o) w [a; b]; Ok (fst r, inl (snd r))).
  (** potion_vm_eq / potion_vm_neq (vm.c 418-438); a non-pointer is compared as a
      word *)
  Definition eqcmp (neg : bool) (w : W) (a b : Z) : res (W * (Z + Z)) :=
    if PN_IS_PTR a then do r <- h_prim H (if neg then P_neq else P_eq) w [a; b]; Ok (fst r, inl (snd r))
    else Ok (w, inl (PN_BOOL (if neg then negb (a =? b) else a =? b))).
  (** the two-register operators: vm.c 748-782 *)
  Definition binop (o : opc) (w : W) (a b : Z) : res (W * (Z + Z)) :=
    match o with
    | O_ADD | O_SUB | O_MULT => math3 o w a b
    | O_DIV | O_REM | O_BITL | O_BITR => math2 o w a b
    | O_POW => do r <- h_prim H P_pow w [a; b]; Ok (fst r, inl (snd r))
    | O_CMP => Ok (w, inl (vm_cmp a b))
    | O_EQ => eqcmp false w a b
    | O_NEQ => eqcmp true w a b
    | O_LT | O_LTE | O_GT | O_GTE => numcmp o w a b
    | _ => UB
    end.

  (** reading and writing a local that may have been captured: vm.c 701-716 *)
  Definition getlocal (w : W) (v : Z) : res (W * Z) :=
    if h_isref H w v then h_prim H P_deref w [v] else Ok (w, v).
  (** returns the new content of the slot *)
  Definition setlocal (w : W) (slot v : Z) : res (W * Z) :=
    if h_isref H w slot then do r <- h_prim H P_setref w [slot; v]; Ok (fst r, slot)
    else Ok (w, v).

  (** vm.c 828-836 and 850-859: defaults for the missing arguments; [fill] counts
      up op.b (and, for a bytecode callee, f->stack) *)
  Fixpoint fill_defaults (sig : list Z) (reg a i : Z) (n : nat) (st : list Z) : res (list Z) :=
    match n with
    | O => Ok st
    | S n' =>
        do v <- fill_one is_str STR0 sig i;
        do st <- (match v with Some v => wr st (reg + a + i + 2) v | None => Ok st end);
        fill_defaults sig reg a (i + 1) n' st
    end.
  Fixpoint read_regs (st : list Z) (i : Z) (n : nat) : res (list Z) :=
    match n with
    | O => Ok []
    | S n' => do v <- rd st i; do l <- read_regs st (i + 1) n'; Ok (v :: l)
    end.

  (** vm.c 906-925 OP_PROTO: the captured variables, from the instructions that
      follow; [ups] and [locals] are stack indices *)
  Fixpoint capture (f : pb) (cu locals pos : Z) (n : nat) (st : list Z) (w : W)
    : res (list Z * W * list Z) :=
    match n with
    | O => Ok (st, w, [])
    | S n' =>
        match gnth (b_code f) (pos + 1) with
        | Some (mkI O_GETUPVAL _ b) =>
            do v <- rd st (cu + b);
            do x <- capture f cu locals (pos + 1) n' st w;
            let '(st, w, l) := x in Ok (st, w, v :: l)
        | Some (mkI O_GETLOCAL _ b) =>
            do v <- rd st (locals + b);
            do r <- h_prim H P_ref w [v];
            do st <- wr st (locals + b) (snd r);
            do x <- capture f cu locals (pos + 1) n' st (fst r);
            let '(st, w, l) := x in Ok (st, w, snd r :: l)
        | Some _ =>
            do x <- capture f cu locals (pos + 1) n' st w;
            let '(st, w, l) := x in Ok (st, w, PN_NIL :: l)
        | None => UB
        end
    end.

  Definition instr_at (f : pb) (pos : Z) : option instr :=
    gnth (b_code f) pos.

  (** vm.c 816-869: OP_CALL on a closure [cl] already in reg[a] *)
  Definition call_closure (s : vst W) (f : pb) (st : list Z) (w : W) (reg a b : Z) (cl : Z) : res (sres W) :=
    let next st w := Ok (SRun (mkV st (v_cu s) (v_f s) (u32 (v_pos s + 1)) w (v_fs s))) in
    let numargs := b - a - 1 in
    match h_kind H w cl with
    | KVtable | KOther => UB
    | KNative sig arity minargs =>
        let bad := match sig with Some _ => sig_check minargs arity numargs | None => false end in
        if bad then do r <- h_prim H P_sig_error w [cl; PN_NUM numargs]; Ok (SDone (fst r) (v_fs s) (snd r))
        else
          let extra := match sig with Some _ => Z.max 0 (arity - numargs) | None => 0 end in
          do st <- (match sig with
                    | Some t => fill_defaults t reg a numargs (Z.to_nat extra) st
                    | None => Ok st end);
          do args <- read_regs st (reg + a + 1) (Z.to_nat (b + extra - a));
          do r <- h_prim H P_call w (cl :: args);
          do st <- wr st (reg + a) (snd r);
          next st (fst r)
    | KVm pid sig arity minargs ups =>
        if STACK_MAX <=? reg + v_fs s (v_f s) + upvalsize f + localsize f + 8 then
          do self <- rd st (reg + a + 1);
          do args <- read_regs st (reg + a + 2) (Z.to_nat (b - a - 2));
          do r <- nested pid self args ups w (v_fs s);
          let '(w, fs, v) := r in
          do st <- wr st (reg + a) v;
          Ok (SRun (mkV st (v_cu s) (v_f s) (u32 (v_pos s + 1)) w fs))
        else
          do self <- rd st (reg + a + 1);
          let bad := match sig with Some _ => sig_check minargs arity numargs | None => false end in
          if bad then do r <- h_prim H P_sig_error w [cl; PN_NUM numargs]; Ok (SDone (fst r) (v_fs s) (snd r))
          else
            let extra := match sig with Some _ => Z.max 0 (arity - numargs) | None => 0 end in
            do st <- (match sig with
                      | Some t => fill_defaults t reg a numargs (Z.to_nat extra) st
                      | None => Ok st end);
            let fs := upd_fs (v_fs s) (v_f s) (v_fs s (v_f s) + extra) in
            let cu := reg + fs (v_f s) + 2 in
            do st <- wr st (cu - 2) (v_f s);
            do st <- wr st (cu - 1) (v_pos s);
            enter st cu pid self ups (AStack (reg + a + 2)) w fs
    end.

  (** one turn of the loop, vm.c 666-945 *)
  Definition step (s : vst W) : res (sres W) :=
    let st := v_st s in
    let w := v_w s in
    do f <- proto_at (v_f s);
    let cu := v_cu s in
    let locals := cu + upvalsize f in
    let reg := regbase cu f in
    if negb (v_pos s <? zlen (b_code f)) then
      do v <- rd st reg; Ok (SDone w (v_fs s) v)
    else
    match instr_at f (v_pos s) with
    | None => UB
    | Some (mkI o a b) =>
      let go st w pos := Ok (SRun (mkV st cu (v_f s) (u32 pos) w (v_fs s))) in
      let next st w := go st w (v_pos s + 1) in
      let set v w := do st <- wr st (reg + a) v; next st w in
      let R i := rd st (reg + i) in
      let call1 p args := do r <- h_prim H p w args; set (snd r) (fst r) in
      match o with
      | O_NONE => next st w
      | O_MOVE => do v <- R b; set v w
      | O_LOADK => do v <- rd (b_values f) b; set v w
      | O_LOADPN => set (u64 b) w
      | O_SELF => do v <- R (-1); set v w
      | O_GETLOCAL => do v <- rd st (locals + b); do r <- getlocal w v; set (snd r) (fst r)
      | O_SETLOCAL =>
          do slot <- rd st (locals + b); do v <- R a;
          do r <- setlocal w slot v;
          do st <- wr st (locals + b) (snd r); next st (fst r)
      | O_GETUPVAL => do v <- rd st (cu + b); call1 P_deref [v]
      | O_SETUPVAL =>
          do u <- rd st (cu + b); do v <- R a;
          do r <- h_prim H P_setref w [u; v]; next st (fst r)
      | O_GLOBAL =>
          do n <- R a; do v <- R b;
          do r <- h_prim H P_global w [n; v]; set v (fst r)
      | O_NEWTUPLE => call1 P_tuple []
      | O_GETTUPLE =>
          do t <- R a;
          do i <- (if negb (Z.land b ASM_TPL_IMM =? 0)
                   then do x <- R (b - ASM_TPL_IMM); Ok (PN_NUM (PN_INT x)) else Ok (PN_NUM b));
          call1 P_tuple_at [t; i]
      | O_SETTUPLE => do t <- R a; do v <- R b; call1 P_push [t; v]
      | O_GETTABLE => do t <- R a; do v <- R b; call1 P_table_at [t; v]
      | O_SETTABLE =>
          do t <- R a; do k <- R (a + 1); do v <- R b;
          do r <- h_prim H P_table_set w [t; k; v]; next st (fst r)
      | O_NEWLICK =>
          do attr <- (if a <? b then R (a + 1) else Ok PN_NIL);
          do inner <- (if a + 1 <? b then R b else Ok PN_NIL);
          do n <- R a; call1 P_lick [n; attr; inner]
      | O_GETPATH => do x <- R a; do k <- R b; call1 P_obj_get [x; k]
      | O_SETPATH =>
          do x <- R a; do k <- R (a + 1); do v <- R b;
          do r <- h_prim H P_obj_set w [x; k; v]; next st (fst r)
      | O_ADD | O_SUB | O_MULT | O_DIV | O_REM | O_POW | O_CMP | O_EQ | O_NEQ
      | O_LT | O_LTE | O_GT | O_GTE | O_BITL | O_BITR =>
          do x <- R a; do y <- R b;
          do r <- binop o w x y;
          match snd r with
          | inl v => set v (fst r)
          | inr e => Ok (SDone (fst r) (v_fs s) e)
          end
      | O_NOT => do x <- R a; set (PN_BOOL (negb (PN_TEST x))) w
      | O_BITN => do x <- R b;
                  if PN_IS_INT x then set (num_bitn x) w else call1 P_bitn [x]
      | O_DEF => do x <- R a; do k <- R (a + 1); do v <- R b; call1 P_def [x; k; v]
      | O_BIND => do x <- R b; do m <- R a; call1 P_bind [x; m]
      | O_MSG => do x <- R b; do m <- R a; call1 P_message [x; m]
      | O_JMP => go st w (v_pos s + a + 1)
      | O_TEST => do x <- R a; set (PN_BOOL (PN_TEST x)) w
      | O_TESTJMP => do x <- R a; go st w (if PN_TEST x then v_pos s + b + 1 else v_pos s + 1)
      | O_NOTJMP => do x <- R a; go st w (if negb (PN_TEST x) then v_pos s + b + 1 else v_pos s + 1)
      | O_NAMED =>
          do cl <- R a; do nm <- R (b - 1);
          do r <- h_prim H P_sig_find w [cl; nm];
          let x := PN_INT (snd r) in
          if 0 <=? x then do v <- R b; do st <- wr st (reg + a + x + 2) v; next st (fst r)
          else Ok SFatal
      | O_CALL =>
          do callee <- R a;
          match h_kind H w callee with
          | KVtable =>
              do r <- h_prim H P_object_new w [callee];
              do st <- wr st (reg + a + 1) (snd r);
              do c <- h_prim H P_ctor (fst r) [callee];
              do st <- wr st (reg + a) (snd c);
              call_closure s f st (fst c) reg a b (snd c)
          | KOther =>
              do st <- wr st (reg + a + 1) callee;
              do r <- h_prim H P_get_call w [callee];
              do st <- wr st (reg + a) (snd r);
              if h_isclosure H (fst r) (snd r) then
                do args <- read_regs st (reg + a + 1) (Z.to_nat (b - a));
                do r2 <- h_prim H P_call (fst r) (snd r :: args);
                do st <- wr st (reg + a) (snd r2); next st (fst r2)
              else next st (fst r)
          | _ => call_closure s f st w reg a b callee
          end
      | O_CALLSET => do x <- R b; call1 P_get_callset [x]
      | O_TAILCALL => Ok SFatal
      | O_RETURN =>
          do v <- R a;
          if negb (cu =? 0) then
            do pid <- rd st (cu - 2);
            do pos <- rd st (cu - 1);
            do g <- proto_at pid;
            match instr_at g pos with
            | None => UB
            | Some i =>
                let reg' := cu - (v_fs s pid + 2) in
                let cu' := reg' - (localsize g + upvalsize g + 1) in
                do st <- wr st (reg' + ia i) v;
                if STACK_MAX <=? cu' then Ok SFatal else
                Ok (SRun (mkV st cu' pid (u32 (pos + 1)) w (v_fs s)))
            end
          else Ok (SDone w (v_fs s) v)
      | O_PROTO =>
          do pid <- rd (b_protos f) b;
          do g <- proto_at pid;
          do x <- capture f cu locals (v_pos s) (length (b_upvals g)) st w;
          let '(st, w, caps) := x in
          do r <- h_prim H (P_closure pid) w caps;
          do st <- wr st (reg + a) (snd r);
          go st (fst r) (v_pos s + zlen (b_upvals g) + 1)
      | O_CLASS => do x <- R b; do y <- R a; call1 P_class [x; y]
      | O_DEBUG => UB
      end
    end.
End Vm.

(** potion_vm, vm.c 596-951; [fuel] bounds the number of instructions *)
Section Run.
  Context {W : Type} (H : host W) (tbl : list pb) (is_str : Z -> bool) (STR0 : Z).
  Fixpoint vrun (fuel : nat) (r : res (sres W)) : res (W * (Z -> Z) * Z) :=
    match fuel with
    | O => NoFuel
    | S n =>
        match r with
        | Ok (SDone w fs v) => Ok (w, fs, v)
        | Ok SFatal => UB
        | UB => UB
        | NoFuel => NoFuel
        | Ok (SRun s) =>
            vrun n (step H tbl is_str STR0
                      (fun pid self args ups w fs =>
                         vrun n (vm_start tbl is_str pid self (ATuple args) ups w fs)) s)
        end
    end.
  Definition potion_vm (fuel : nat) (pid self : Z) (args : option (list Z)) (ups : list Z)
      (w : W) (fs : Z -> Z) : res (W * (Z -> Z) * Z) :=
    vrun fuel (vm_start tbl is_str pid self
                 (match args with Some l => ATuple l | None => ANone end) ups w fs).
End Run.
