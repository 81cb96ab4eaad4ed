(** Model of the x86-64 code generator: core/vm-x86.c (the per-operation
    emitters) and core/vm.c 212-366 (potion_jit_proto), 64-bit build.

    The bytes are those of the C macros.  Modelled: functions whose nested
    functions capture no variable (PN_HAS_UPVALS false) and which have no
    upvalues; operations MOVE LOADK LOADPN SELF GETLOCAL SETLOCAL GLOBAL NEWTUPLE
    SETTUPLE GETTABLE SETTABLE GETPATH SETPATH ADD SUB MULT DIV REM POW EQ NEQ LT
    LTE GT GTE BITN DEF BIND MSG JMP TEST NOT CMP TESTJMP NOTJMP CALLSET RETURN
    CALL (in functions without nested functions, with at most three arguments
    after self) CLASS NEWLICK GETTUPLE NAMED.  Not modelled: PROTO, GETUPVAL, SETUPVAL,
    BITL, BITR (no bytes: None). *)
From Verif Require Import Base Arr GArr WordModel AsmModel ObjModel SigModel CompileModel.

(** addresses of the runtime functions the code calls *)
Inductive cfun :=
| F_values | F_define_global | F_tuple_empty | F_tuple_push | F_table_at | F_table_set
| F_obj_get | F_obj_set | F_obj_add | F_obj_sub | F_obj_mult | F_obj_div | F_obj_rem
| F_num_pow | F_vm_eq | F_vm_neq | F_obj_bitn | F_obj_bitl | F_obj_bitr | F_def_method | F_bind | F_message
| F_get_callset | F_vm_class | F_object_new | F_get_call | F_ref | F_protos | F_lick | F_fwd | F_sig_find.

Section Jit.
  Context (addr : cfun -> Z).

  (** asm.h 98-102 ASM, ASMI, ASMN *)
  Definition ASMI (x : Z) : list Z := le_bytes 4 x.
  Definition ASMN (x : Z) : list Z := le_bytes 8 x.
  (** vm-x86.c 17-18 RBP (here RBPB), RBPN and 49-51 ASM_MOV_EBP *)
  Definition RBPB (x : Z) : Z := (256 - (x + 1) * 8) mod 256.
  Definition RBPN (x : Z) : Z := - ((x + 1) * 8).
  Definition mov_ebp (op reg : Z) : list Z :=
    if 15 <? reg then (op + 64) :: ASMI (RBPN reg) else [op; RBPB reg].
  (** 55 X86_MOV_RBP, 61-63 X86_MOVQ *)
  Definition mov_rbp (o x : Z) : list Z := [72; o] ++ mov_ebp 69 x.
  Definition movq (reg x : Z) : list Z := [72; 184] ++ ASMN (u64 x) ++ [72; 137] ++ mov_ebp 69 reg.
  (** X86_PRE(); ASM(0xB8); ASMN(f); ASM(0xFF); ASM(0xD0) *)
  Definition callf (f : cfun) : list Z := [72; 184] ++ ASMN (addr f) ++ [255; 208].
  (** 323-408 potion_x86_c_arg with out = 1 (X86_ARGO) and out = 0 (X86_ARGI),
      arguments 0..5 *)
  Definition argo (regn argn : Z) : list Z :=
    if argn =? 0 then [72; 139] ++ mov_ebp 125 regn
    else if argn =? 1 then [72; 139] ++ mov_ebp 117 regn
    else if argn =? 2 then [72; 139] ++ mov_ebp 85 regn
    else if argn =? 3 then [72; 139] ++ mov_ebp 77 regn
    else if argn =? 4 then [76; 139] ++ mov_ebp 69 regn
    else [76; 139] ++ mov_ebp 77 regn.
  Definition argi (regn argn : Z) : list Z :=
    if argn =? 0 then [72; 137] ++ mov_ebp 125 regn
    else if argn =? 1 then [72; 137] ++ mov_ebp 117 regn
    else if argn =? 2 then [72; 137] ++ mov_ebp 85 regn
    else if argn =? 3 then [72; 137] ++ mov_ebp 77 regn
    else if argn =? 4 then [76; 137] ++ mov_ebp 69 regn
    else [76; 137] ++ mov_ebp 77 regn.

  (** 103-121 X86_MATH.  TAG_PREP / TAG_LABEL: the displacement byte is the
      distance from behind it to the label. *)
  Definition x86_math (two : bool) (f : cfun) (ops : list Z) (start a b : Z) : list Z :=
    let slow := argo (start - 3) 0 ++ argo a 1 ++ argo b 2 ++ callf f in
    let fast := ops ++ [235; zlen slow] in
    let second := if two then [246; 194; 1] ++ [116; zlen fast] else [] in
    mov_rbp 139 a ++ (if two then [72; 139] ++ mov_ebp 85 b else []) ++
    [246; 192; 1] ++ [116; zlen second + zlen fast] ++ second ++ fast ++ slow ++ mov_rbp 137 a.

  (** 130-172 X86_NUMCMP(iop, xop, xmms): [r] = false / true at the end *)
  Definition x86_numcmp (iop xop : Z) (a b : Z) : list Z :=
    let bool_true := movq a PN_TRUE in
    let bool_false := movq a PN_FALSE ++ [235; 14 + (if 31 <? a then 3 else 0)] in
    let cmp_dbl := [102; 15; 46; 193] ++ [xop; zlen bool_false] in
    let dbl_b := [242; 15; 16; 72; 8] ++ [246; 194; 1] ++ [116; 14] ++ [102; 15; 239; 192] ++
                 [72; 209; 250] ++ [242; 72; 15; 42; 194] ++ [235; 5] ++ [242; 15; 16; 66; 8] in
    let dbl_a := [242; 15; 16; 66; 8] ++ [102; 15; 239; 201] ++ [72; 209; 248] ++
                 [242; 72; 15; 42; 200] ++ [235; zlen dbl_b] in
    let jmp_false := [235; zlen dbl_a + zlen dbl_b + zlen cmp_dbl] in
    let ints := [72; 57; 194] ++ [iop; 2 + zlen dbl_a + zlen dbl_b + zlen cmp_dbl + zlen bool_false] ++ jmp_false in
    let test_a := [246; 194; 1] ++ [116; zlen ints] in
    [72; 139] ++ mov_ebp 85 a ++ mov_rbp 139 b ++
    [168; 1] ++ [116; zlen test_a + zlen ints + zlen dbl_a] ++ test_a ++ ints ++ dbl_a ++ dbl_b ++
    cmp_dbl ++ bool_false ++ bool_true.

  (** 861-874 potion_x86_test_asm *)
  Definition x86_test (test : bool) (a : Z) : list Z :=
    let f := movq a (if test then PN_TRUE else PN_FALSE) in
    let t := movq a (if test then PN_FALSE else PN_TRUE) ++ [235; zlen f] in
    let second := [72; 133; 192] ++ [116; zlen t] in
    mov_rbp 139 a ++ [72; 131; 248; PN_FALSE] ++ [116; zlen second + zlen t] ++ second ++ t ++ f.

  (** potion.h 123, 128, 153 *)
  Definition PN_TCLOSURE : Z := 2424839.
  Definition PN_TVTABLE : Z := 2424844.
  Definition PN_REF_MASK : Z := -8.
  (** 936-1022 potion_x86_call, without the default arguments (984-1001), which
      need a nested function; argument i of the call from register a+i-1 *)
  Fixpoint call_args (a i : Z) (n : nat) : list Z :=
    match n with O => [] | S n => argo (a + i - 1) i ++ call_args a (i + 1) n end.
  Definition x86_call (start a b : Z) : list Z :=
    let ld := mov_rbp 139 a in
    let class := argo (start - 3) 0 ++ argo a 2 ++ callf F_object_new ++ mov_rbp 137 (a + 1) ++ ld ++
                 [72; 139; 64; 56] ++ mov_rbp 137 a in
    let get := mov_rbp 137 (a + 1) ++ argo (start - 3) 0 ++ argo a 1 ++ callf F_get_call in
    let get_b := get ++ [235; zlen ld] in
    let c := [129; 56] ++ ASMI PN_TCLOSURE ++ [116; zlen ld + zlen get_b] in
    let v := [129; 56] ++ ASMI PN_TVTABLE ++ [117; zlen class] in
    let m := [72; 131; 224; 248] in
    let t := [247; 192] ++ ASMI PN_REF_MASK in
    ld ++ [246; 192; 1] ++
    [117; zlen t + 2 + zlen m + zlen v + zlen class + zlen c + zlen ld] ++ t ++
    [116; zlen m + zlen v + zlen class + zlen c + zlen ld] ++ m ++ v ++ class ++ c ++ ld ++ get_b ++
    ld ++ [72; 139; 64; 8] ++ argo (start - 3) 0 ++ argo a 1 ++ call_args a 2 (Z.to_nat (b - a)) ++
    [255; 208] ++ [72; 137; 69; RBPB a].

  (** the emitters; [regs], [start]: first local, need (vm.c 249-251).  [d] is the
      displacement of the jump, in the last four bytes of a jump operation. *)
  Definition jit_op (regs start : Z) (i : instr) (d : Z) : option (list Z) :=
    let a := ia i in
    let b := ib i in
    match ic i with
    | O_NONE => Some []          (* vm.c 287: no case *)
    | O_MOVE => Some (mov_rbp 139 b ++ mov_rbp 137 a)                                (* 466-470 *)
    | O_LOADPN => Some (movq a b)                                                    (* 472-475 *)
    | O_LOADK => Some (argo (start - 3) 0 ++ argo (start - 2) 1 ++ callf F_values    (* 481-491 *)
                       ++ [72; 5] ++ ASMI (16 + b * 8) ++ [72; 139; 0] ++ mov_rbp 137 a)
    | O_SELF => Some (mov_rbp 139 (start - 1) ++ mov_rbp 137 a)                      (* 493-497 *)
    | O_GETLOCAL => Some (mov_rbp 139 (regs + b) ++ mov_rbp 137 a)                   (* 501-516 *)
    | O_SETLOCAL => Some ([72; 139] ++ mov_ebp 85 a ++ [72; 137] ++ mov_ebp 85 (regs + b)) (* 520-536 *)
    | O_GLOBAL => Some (argo (start - 3) 0 ++ argo a 1 ++ argo b 2 ++ callf F_define_global (* 556-565 *)
                        ++ mov_rbp 139 b ++ mov_rbp 137 a)
    | O_NEWTUPLE => Some (argo (start - 3) 0 ++ callf F_tuple_empty ++ mov_rbp 137 a) (* 567-573 *)
    | O_GETTUPLE => Some (argo a 0 ++ callf F_fwd ++                                 (* 580-596 *)
                          (if negb (Z.land b ASM_TPL_IMM =? 0)
                           then [72; 139] ++ mov_ebp 85 (b - ASM_TPL_IMM) ++ [72; 209; 234] ++ [72; 139; 68; 208; 16]
                           else [72; 199; 194] ++ ASMI (b + 2) ++ [72; 139; 4; 208])
                          ++ mov_rbp 137 a)
    | O_NAMED => let st := [72; 247; 216] ++ ([72; 139] ++ mov_ebp 85 b) ++                (* 907-933 *)
                           (if 15 <? a + 2 then [72; 137; 148; 197; RBPB (a + 2); 255; 255]
                            else [72; 137; 84; 197; RBPB (a + 2)]) in
                 Some (argo (start - 3) 0 ++ argo a 1 ++ argo (b - 1) 2 ++ callf F_sig_find ++
                       [133; 192] ++ [120; zlen st] ++ st)
    | O_SETTUPLE => Some (argo (start - 3) 0 ++ argo a 1 ++ argo b 2 ++ callf F_tuple_push ++ mov_rbp 137 a)
    | O_GETTABLE => Some (argo (start - 3) 0 ++ argo a 2 ++ argo b 3 ++ callf F_table_at ++ mov_rbp 137 a)
    | O_SETTABLE => Some (argo (start - 3) 0 ++ argo a 1 ++ argo (a + 1) 2 ++ argo b 3 ++ callf F_table_set
                          ++ mov_rbp 137 a)                                          (* 616-625 *)
    | O_NEWLICK => Some (argo (start - 3) 0 ++ argo a 1 ++                           (* 630-652 *)
                         (if a <? b then argo (a + 1) 2 else movq a PN_NIL ++ argo a 2) ++
                         (if a + 1 <? b then argo b 3 else (if a <? b then movq a PN_NIL else []) ++ argo a 3) ++
                         callf F_lick ++ mov_rbp 137 a)
    | O_GETPATH => Some (argo (start - 3) 0 ++ argo a 2 ++ argo b 3 ++ callf F_obj_get ++ mov_rbp 137 a)
    | O_SETPATH => Some (argo (start - 3) 0 ++ argo a 2 ++ argo (a + 1) 3 ++ argo b 4 ++ callf F_obj_set)
    | O_ADD => Some (x86_math true F_obj_add ([72; 141; 68; 16; 255] ++ [112; 2]) start a b)
    | O_SUB => Some (x86_math true F_obj_sub ([72; 41; 208] ++ [112; 5] ++ [72; 255; 192]) start a b)
    | O_MULT => Some (x86_math true F_obj_mult
                        ([72; 209; 250] ++ [72; 255; 200] ++ [72; 15; 175; 194] ++ [112; 5] ++ [72; 255; 192])
                        start a b)
    | O_DIV => Some (x86_math true F_obj_div
                       [209; 248; 209; 250; 137; 209; 137; 194; 193; 250; 31; 247; 249; 141; 68; 0; 1] start a b)
    | O_REM => Some (x86_math true F_obj_rem
                       [209; 248; 209; 250; 137; 209; 137; 194; 193; 250; 31; 247; 249; 141; 68; 18; 1] start a b)
    | O_POW => Some (argo (start - 3) 0 ++ argo a 2 ++ argo b 3 ++ callf F_num_pow ++ mov_rbp 137 a)
    | O_NEQ => Some (argo (start - 3) 0 ++ argo a 1 ++ argo b 2 ++ callf F_vm_neq ++ mov_rbp 137 a)
    | O_EQ => Some (argo (start - 3) 0 ++ argo a 1 ++ argo b 2 ++ callf F_vm_eq ++ mov_rbp 137 a)
    | O_LT => Some (x86_numcmp 124 114 a b)
    | O_LTE => Some (x86_numcmp 126 118 a b)
    | O_GT => Some (x86_numcmp 127 119 a b)
    | O_GTE => Some (x86_numcmp 125 115 a b)
    | O_BITN => Some (x86_math false F_obj_bitn ([72; 247; 208] ++ [72; 255; 192]) start a b)
    | O_DEF => Some (argo (start - 3) 0 ++ argo a 2 ++ argo (a + 1) 3 ++ argo b 4 ++ callf F_def_method
                     ++ mov_rbp 137 a)
    | O_BIND => Some (argo (start - 3) 0 ++ argo b 1 ++ argo a 2 ++ callf F_bind ++ mov_rbp 137 a)
    | O_MSG => Some (argo (start - 3) 0 ++ argo b 1 ++ argo a 2 ++ callf F_message ++ mov_rbp 137 a)
    | O_JMP => Some ([233] ++ ASMI d)                                                (* 856-859 *)
    | O_TEST | O_CMP => Some (x86_test false a)                                      (* 876-886 *)
    | O_NOT => Some (x86_test true a)
    | O_TESTJMP => Some (mov_rbp 139 a ++ [72; 131; 248; PN_FALSE] ++ [116; 10] ++ [72; 133; 192]
                         ++ [116; 5] ++ [233] ++ ASMI d)                             (* 888-896 *)
    | O_NOTJMP => Some (mov_rbp 139 a ++ [72; 131; 248; PN_FALSE] ++ [116; 5] ++ [72; 133; 192]
                         ++ [117; 5] ++ [233] ++ ASMI d)                             (* 898-907 *)
    | O_CALL => if b - a <=? 4 then Some (x86_call start a b) else None
    | O_CALLSET => Some (argo (start - 3) 0 ++ argo b 1 ++ callf F_get_callset ++ mov_rbp 137 a)
    | O_RETURN => Some (mov_rbp 139 0 ++ [201; 195])                                 (* 1033-1036 *)
    | O_CLASS => Some (argo (start - 3) 0 ++ argo b 1 ++ argo a 2 ++ callf F_vm_class ++ mov_rbp 137 a)
    | _ => None
    end.
  (** relative target of a jump operation *)
  Definition jump_of (i : instr) : option Z :=
    match ic i with
    | O_JMP => Some (ia i)
    | O_TESTJMP | O_NOTJMP => Some (ib i)
    | _ => None
    end.

  (** vm.c 265-279 (reading the arguments): the parameter names, i.e. the strings
      of the signature that do not follow a ':' *)
  Fixpoint jit_names (is_str : Z -> bool) (prev : Z) (t : list Z) : list Z :=
    match t with
    | [] => []
    | v :: t => if is_str v && negb (prev =? COLON) then v :: jit_names is_str v t else jit_names is_str v t
    end.
  (** [PN_GET(f->locals, v)], then target->local (vm-x86.c 438-440) *)
  Fixpoint jit_params (regs argx : Z) (locals names : list Z) : list Z :=
    match names with
    | [] => []
    | v :: ns =>
        (match vfind locals v with Some num => argi (regs + num) (3 + argx) | None => [] end)
        ++ jit_params regs (argx + 1) locals ns
    end.
  (** vm-x86.c 411-432 setup, stack, registers *)
  Definition jit_prologue (regs start protoargs : Z) (locals names : list Z) : list Z :=
    let rsp := Z.land ((start + protoargs) * 8 + 15) (-16) in
    [85; 72; 137; 229] ++
    (if 128 <=? rsp then [72; 129; 236] ++ ASMI rsp else [72; 131; 236; rsp]) ++
    argi (start - 3) 0 ++ argi (start - 2) 1 ++ argi (start - 1) 2 ++ argi 0 2 ++
    jit_params regs 0 locals names.

  (** vm.c 212-213 *)
  Definition JUMPS_MAX : Z := 1024.
  (** jmpedit: overwrite four bytes *)
  Definition patch4 (buf : list Z) (from d : Z) : list Z :=
    firstn (Z.to_nat from) buf ++ ASMI d ++ skipn (Z.to_nat (from + 4)) buf.
  Fixpoint patch_all (pos : Z) (jmps : list (Z * Z)) (buf : list Z) : list Z :=
    match jmps with
    | [] => buf
    | (from, to) :: js =>
        patch_all pos js (if to =? pos then patch4 buf from (zlen buf - (from + 4)) else buf)
    end.
  (** vm.c 284-351; TAG_JMP is vm-x86.c 252-263 *)
  Fixpoint jit_loop (regs start : Z) (is : list instr) (pos : Z) (buf : list Z) (offs : list Z)
      (jmps : list (Z * Z)) : res (list Z) :=
    match is with
    | [] => Ok buf
    | i :: is =>
        if JUMPS_MAX <=? pos then UB else
        let offs := offs ++ [zlen buf] in
        let buf := patch_all pos jmps buf in
        match jump_of i with
        | None =>
            match jit_op regs start i 0 with
            | None => UB
            | Some bytes => jit_loop regs start is (pos + 1) (buf ++ bytes) offs jmps
            end
        | Some rel =>
            let jpos := pos + rel in
            match jit_op regs start i 0 with
            | None => UB
            | Some bytes0 =>
                let at_ := zlen buf + zlen bytes0 - 4 in
                if pos <=? jpos then
                  if JUMPS_MAX <=? zlen jmps then UB else
                  jit_loop regs start is (pos + 1) (buf ++ bytes0) offs (jmps ++ [(at_, jpos + 1)])
                else
                  do o <- grd offs (jpos + 1);
                  match jit_op regs start i (o - (at_ + 4)) with
                  | None => UB
                  | Some bytes => jit_loop regs start is (pos + 1) (buf ++ bytes) offs jmps
                  end
            end
        end
    end.
  (** vm.c 212-366 potion_jit_proto; [protoargs]: words reserved for the arguments
      of calls; a function with more than three parameters, or with calls and nested
      functions, is not modelled *)
  Definition is_call (i : instr) : bool := match ic i with O_CALL => true | _ => false end.
  Definition jit_proto (is_str : Z -> bool) (f : pb) (protoargs : Z) : res (list Z) :=
    let regs := b_stack f in
    let need := regs + zlen (b_locals f) + zlen (b_upvals f) + 3 in
    let names := jit_names is_str 0 (b_sig f) in
    if 3 <? zlen names then UB
    else if existsb is_call (b_code f) && negb (zlen (b_protos f) =? 0) then UB
    else jit_loop regs need (b_code f) 0 (jit_prologue regs need protoargs (b_locals f) names) [] [].
End Jit.
