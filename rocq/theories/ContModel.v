(** Model of continuations on x86-64: core/callcc.c 18-63 (potion_continuation_yield) and
    102-166 (potion_callcc), the inline assembly instruction by instruction.

    Simplifications:
    - memory is a map from addresses to 64-bit words; an access must be 8-byte aligned,
      so two accesses never overlap in part;
    - the registers are those the code names and those the compiler may choose for the
      operands %0, %1, %2 of the inline assembly;
    - the C code of potion_callcc between its prologue and the inline assembly (reading
      rsp and rbp, the allocation) is given by the state [m2] it ends in; the C statements
      that store into the continuation are written out.  The stack grows downwards
      (POTION_STACK_DIR < 0). *)
From Verif Require Import Base Arr.

Inductive rg := RAX | RBX | RCX | RDX | RSI | RDI | RBP | RSP | R8 | R9 | R10 | R11 | R12 | R13 | R14 | R15.
Definition rg_eqb (a b : rg) : bool :=
  match a, b with
  | RAX, RAX | RBX, RBX | RCX, RCX | RDX, RDX | RSI, RSI | RDI, RDI | RBP, RBP | RSP, RSP
  | R8, R8 | R9, R9 | R10, R10 | R11, R11 | R12, R12 | R13, R13 | R14, R14 | R15, R15 => true
  | _, _ => false
  end.
(** zf: the flag that cmp sets and jne tests *)
Record mach := mkM { rgs : rg -> Z; mem : Z -> Z; zf : bool; rip : Z }.
Definition setr (m : mach) (r : rg) (v : Z) : mach :=
  mkM (fun x => if rg_eqb x r then v else rgs m x) (mem m) (zf m) (rip m).
Definition w64 (x : Z) : Z := x mod 18446744073709551616.
Definition load (m : mach) (a : Z) : res Z := if a mod 8 =? 0 then Ok (mem m a) else UB.
Definition store (m : mach) (a v : Z) : res mach :=
  if a mod 8 =? 0 then Ok (mkM (rgs m) (fun x => if x =? a then v else mem m x) (zf m) (rip m)) else UB.

Inductive op :=
| Ld (dst base : rg) (off : Z)          (* mov off(base), dst *)
| St (base : rg) (off : Z) (src : rg)   (* mov src, off(base) *)
| StI (base : rg) (off imm : Z)         (* movq imm, off(base) *)
| Mv (dst src : rg)
| AddI (r : rg) (imm : Z)
| Cmp (a b : rg)
| Jne (target : nat)                    (* to the instruction of that number *)
| Push (r : rg) | Leave | Ret.
(** one instruction: the next state and, for a jump that is taken, its target *)
Definition step (o : op) (m : mach) : res (mach * option nat) :=
  match o with
  | Ld d b off => do v <- load m (w64 (rgs m b + off)); Ok (setr m d v, None)
  | St b off s => do m <- store m (w64 (rgs m b + off)) (rgs m s); Ok (m, None)
  | StI b off i => do m <- store m (w64 (rgs m b + off)) i; Ok (m, None)
  | Mv d s => Ok (setr m d (rgs m s), None)
  | AddI r i => Ok (setr m r (w64 (rgs m r + i)), None)
  | Cmp a b => Ok (mkM (rgs m) (mem m) (rgs m a =? rgs m b) (rip m), None)
  | Jne t => Ok (m, if zf m then None else Some t)
  | Push r => let sp := w64 (rgs m RSP - 8) in
              do m' <- store m sp (rgs m r); Ok (setr m' RSP sp, None)
  | Leave => let sp := rgs m RBP in
             do v <- load m sp; Ok (setr (setr m RBP v) RSP (w64 (sp + 8)), None)
  | Ret => let sp := rgs m RSP in
           do v <- load m sp; Ok (mkM (rgs (setr m RSP (w64 (sp + 8)))) (mem m) (zf m) v, None)
  end.
(** the instructions of [code] from number [pc] on, until behind the last one *)
Fixpoint exec (fuel : nat) (code : list op) (pc : nat) (m : mach) : res mach :=
  match fuel with
  | O => NoFuel
  | S f => match nth_error code pc with
           | None => Ok m
           | Some o => do (m, t) <- step o m; exec f code (match t with Some t => t | None => S pc end) m
           end
  end.

(** potion.h 519-524: header and len are 16 bytes, then the words of stack[] *)
Definition cont_stack (cc : Z) : Z := cc + 16.

(** callcc.c 136-140 *)
Definition save_code (r : rg) : list op :=
  [St r 32 RBX; St r 40 R12; St r 48 R13; St r 56 R14; St r 64 R15].
(** callcc.c 129-132 *)
Definition store4 (m : mach) (st sp1 sp2 sp3 : Z) : res mach :=
  do m <- store m st sp1; do m <- store m (st + 8) sp2; do m <- store m (st + 16) sp3; store m (st + 24) 0.
(** PN_MEMCPY_N of words *)
Fixpoint copy_words (cnt : nat) (m : mach) (dst src : Z) : res mach :=
  match cnt with
  | O => Ok m
  | S c => do v <- load m src; do m <- store m dst v; copy_words c m (dst + 8) (src + 8)
  end.
(** the prologue of a C function compiled with -fno-omit-frame-pointer and [frame] bytes of locals *)
Definition prologue (frame : Z) : list op := [Push RBP; Mv RBP RSP; AddI RSP (- frame)].
(** callcc.c 112-165 from the state [m] in which rsp and rbp are read: [sp1] is
    P->mem->cstack, [cc] the new object, [r] the register the compiler chose for cc->stack;
    returning: the compiler restores the callee-saved registers it used itself
    ([restored], from its frame), then leave; ret *)
Definition callcc_body (sp1 cc : Z) (r : rg) (restored : list (rg * Z)) (m : mach) : res mach :=
  let sp2 := rgs m RSP in
  let sp3 := rgs m RBP in
  let n := (sp1 - sp2) / 8 + 1 in
  if n <? 0 then UB (* potion_fatal *) else
  do m <- store4 m (cont_stack cc) sp1 sp2 sp3;
  do m <- exec 10 (save_code r) 0 (setr m r (cont_stack cc));
  do m <- copy_words (Z.to_nat (n - 1)) m (cont_stack cc + 8 * 9) (sp2 + 8);
  exec (10 + length restored) (map (fun '(q, d) => Ld q RBP d) restored ++ [Leave; Ret]) 0 (setr m RAX cc).

(** callcc.c 41-59; r0, r1, r2 are the registers of the operands start, end, cc->stack *)
Definition yield_code (r0 r1 r2 : rg) : list op :=
  [Ld RSP r2 8; Ld RBP r2 16; Mv RBX r2; AddI r2 72;
   Ld RAX r2 0; AddI r0 8; St r0 0 RAX; AddI r2 8; Cmp r0 r1; Jne 4;
   Ld RAX RBX 24; StI RBX 24 0; Ld R12 RBX 40; Ld R13 RBX 48; Ld R14 RBX 56; Ld R15 RBX 64; Ld RBX RBX 32;
   Leave; Ret].
(** callcc.c 18-63: [None] is the return of nil on a different machine stack *)
Definition yield (fuel : nat) (sp1 cc : Z) (r0 r1 r2 : rg) (m : mach) : res (option mach) :=
  let st := cont_stack cc in
  do base <- load m st;
  do start <- load m (st + 8);
  if negb (sp1 =? base) then Ok None else
  do m <- store m (st + 24) cc;
  let m := setr (setr (setr m r0 start) r1 base) r2 st in
  do m <- exec fuel (yield_code r0 r1 r2) 0 m; Ok (Some m).
