(** The x86-64 instructions that the machine-code generator emits for the
    operations modelled in JitModel (core/vm-x86.c), decoded from bytes and
    executed as the processor does (Intel SDM vol. 2).

    Simplifications:
    - Memory is in two parts.  Accesses through rbp / rsp (push, leave) go to the
      stack, a map from addresses to 64-bit words; an access must be 8-byte
      aligned.  Accesses through rax go to objects, which belong to the host world.
    - CALL rax runs a host function given by the address in rax, with the six
      argument registers of the System V ABI, and requires rsp to be a multiple of
      16 there; it returns a value in rax, preserves
      rbx, rbp, rsp and the stack at and above rsp, and leaves arbitrary values in
      the other registers, the flags and below rsp.
    - RET ends the run if rsp is back where it was on entry.
    - Flags an instruction leaves undefined are unchanged here, and not used by the
      generated code, except the overflow flag of shifts by more than one, which is arbitrary.  The SSE instructions (comparison of floating-point
      numbers) are not decoded. *)
From Verif Require Import Base Arr WordModel ObjModel.

Inductive reg := RAX | RCX | RDX | RBX | RSP | RBP | RSI | RDI | R8 | R9.
Definition reg_eqb (a b : reg) : bool :=
  match a, b with
  | RAX, RAX | RCX, RCX | RDX, RDX | RBX, RBX | RSP, RSP | RBP, RBP | RSI, RSI | RDI, RDI | R8, R8 | R9, R9 => true
  | _, _ => false
  end.

Inductive cc := CO | CE | CNE | CS | CL | CGE | CLE | CG.
Inductive xi :=
| XLd (r : reg) (d : Z)        (* mov r, [rbp+d] *)
| XSt (r : reg) (d : Z)        (* mov [rbp+d], r *)
| XMovI (imm : Z)              (* mov rax, imm64 *)
| XCall                        (* call rax *)
| XTest1 (r : reg)             (* test r8, 1 *)
| XJcc (c : cc) (d : Z) | XJmp (d : Z)
| XLea                         (* lea rax, [rax+rdx-1] *)
| XSub | XInc | XDec           (* sub rax, rdx; inc rax; dec rax *)
| XSar (r : reg)               (* sar r, 1 *)
| XImul                        (* imul rax, rdx *)
| XSar32 (r : reg)             (* sar r32, 1 *)
| XMov32 (d s : reg)           (* mov d32, s32 *)
| XCdq                         (* sar edx, 31 *)
| XIdiv32                      (* idiv ecx *)
| XLea32 (r : reg)             (* lea eax, [r+r+1] *)
| XNot                         (* not rax *)
| XCmp                         (* cmp rdx, rax *)
| XCmpI (imm : Z)              (* cmp rax, imm8 *)
| XTest                        (* test rax, rax *)
| XLeave | XRet
| XPush                        (* push rbp *)
| XMovBp                       (* mov rbp, rsp *)
| XSubSp (n : Z)               (* sub rsp, n *)
| XAddI (imm : Z)              (* add rax, imm32 *)
| XLdA (d : Z)                 (* mov rax, [rax+d] *)
| XTestI (imm : Z)             (* test eax, imm32 *)
| XAndI (imm : Z)              (* and rax, imm8 *)
| XCmpM (imm : Z)              (* cmp dword [rax], imm32 *)
| XStA (d : Z)                 (* mov [rax+d], rdx *)
| XMovDx                       (* mov rdx, rax *)
| XMovDxI (imm : Z)            (* mov rdx, imm32 *)
| XShrDx                       (* shr rdx, 1 *)
| XLdX (d : Z)                 (* mov rax, [rax+rdx*8+d] *)
| XTestEax                     (* test eax, eax *)
| XNegRax                      (* neg rax *)
| XStX (d : Z)                 (* mov [rbp+rax*8+d], rdx *)
| XShlC | XSarC.               (* sal eax, cl; sar eax, cl *)

Definition i8 (b : Z) : Z := if b <? 128 then b else b - 256.
Definition reg64 (n : Z) : option reg :=
  if n =? 0 then Some RAX else if n =? 1 then Some RCX else if n =? 2 then Some RDX
  else if n =? 3 then Some RBX else if n =? 6 then Some RSI else if n =? 7 then Some RDI else None.
Definition reg8x (n : Z) : option reg :=
  if n =? 0 then Some R8 else if n =? 1 then Some R9 else None.
(** ModRM with base rbp and an 8-bit (mod 01) or 32-bit (mod 10) displacement *)
Definition dec_rbp (rf : Z -> option reg) (k : reg -> Z -> xi) (l : list Z) : option (xi * Z) :=
  match l with
  | m :: t =>
      if negb (m mod 8 =? 5) then None else
      match rf (m / 8 mod 8) with
      | None => None
      | Some r =>
          if m / 64 =? 1 then
            match t with b :: _ => Some (k r (i8 b), 4) | [] => None end
          else if m / 64 =? 2 then
            match take_n 4 t with Some (d, _) => Some (k r (s32 (le_val d)), 7) | None => None end
          else None
      end
  | [] => None
  end.
Definition dec_cc (b : Z) : option cc :=
  if b =? 112 then Some CO else if b =? 116 then Some CE else if b =? 117 then Some CNE
  else if b =? 120 then Some CS else if b =? 124 then Some CL else if b =? 125 then Some CGE
  else if b =? 126 then Some CLE else if b =? 127 then Some CG else None.
(** after a REX.W prefix (48) *)
Definition dec48 (l : list Z) : option (xi * Z) :=
  match l with
  | o :: t =>
      if o =? 139 then
        (match t with
         | 0 :: _ => Some (XLdA 0, 3)
         | 64 :: d :: _ => Some (XLdA (i8 d), 4)
         | 4 :: 208 :: _ => Some (XLdX 0, 4)
         | 68 :: 208 :: d :: _ => Some (XLdX (i8 d), 5)
         | 128 :: t' => match take_n 4 t' with Some (d, _) => Some (XLdA (s32 (le_val d)), 7) | None => None end
         | _ => dec_rbp reg64 XLd t end)
      else if o =? 137 then
        (match t with
         | 229 :: _ => Some (XMovBp, 3)
         | 194 :: _ => Some (XMovDx, 3)
         | 84 :: 197 :: d :: _ => Some (XStX (i8 d), 5)
         | 148 :: 197 :: t' => match take_n 4 t' with Some (d, _) => Some (XStX (s32 (le_val d)), 8) | None => None end
         | 80 :: d :: _ => Some (XStA (i8 d), 4)
         | 144 :: t' => match take_n 4 t' with Some (d, _) => Some (XStA (s32 (le_val d)), 7) | None => None end
         | _ => dec_rbp reg64 XSt t end)
      else if o =? 184 then
        (match take_n 8 t with Some (d, _) => Some (XMovI (le_val d), 10) | None => None end)
      else if o =? 141 then
        (match t with 68 :: 16 :: 255 :: _ => Some (XLea, 5) | _ => None end)
      else if o =? 41 then (match t with 208 :: _ => Some (XSub, 3) | _ => None end)
      else if o =? 255 then
        (match t with 192 :: _ => Some (XInc, 3) | 200 :: _ => Some (XDec, 3) | _ => None end)
      else if o =? 209 then
        (match t with 248 :: _ => Some (XSar RAX, 3) | 250 :: _ => Some (XSar RDX, 3) | 234 :: _ => Some (XShrDx, 3) | _ => None end)
      else if o =? 199 then
        (match t with
         | 194 :: t' => match take_n 4 t' with Some (d, _) => Some (XMovDxI (s32 (le_val d)), 7) | None => None end
         | _ => None end)
      else if o =? 15 then (match t with 175 :: 194 :: _ => Some (XImul, 4) | _ => None end)
      else if o =? 247 then (match t with 208 :: _ => Some (XNot, 3) | 216 :: _ => Some (XNegRax, 3) | _ => None end)
      else if o =? 57 then (match t with 194 :: _ => Some (XCmp, 3) | _ => None end)
      else if o =? 131 then
        (match t with
         | 248 :: b :: _ => Some (XCmpI (i8 b), 4)
         | 236 :: b :: _ => Some (XSubSp (i8 b), 4)
         | 224 :: b :: _ => Some (XAndI (i8 b), 4)
         | _ => None end)
      else if o =? 129 then
        (match t with
         | 236 :: t' => match take_n 4 t' with Some (d, _) => Some (XSubSp (s32 (le_val d)), 7) | None => None end
         | _ => None end)
      else if o =? 133 then (match t with 192 :: _ => Some (XTest, 3) | _ => None end)
      else if o =? 5 then
        (match take_n 4 t with Some (d, _) => Some (XAddI (s32 (le_val d)), 6) | None => None end)
      else None
  | [] => None
  end.
Definition dec (l : list Z) : option (xi * Z) :=
  match l with
  | o :: t =>
      if o =? 72 then dec48 t
      else if o =? 76 then
        (match t with
         | 139 :: t' => dec_rbp reg8x XLd t'
         | 137 :: t' => dec_rbp reg8x XSt t'
         | _ => None end)
      else if o =? 255 then (match t with 208 :: _ => Some (XCall, 2) | _ => None end)
      else if o =? 246 then
        (match t with
         | 192 :: 1 :: _ => Some (XTest1 RAX, 3)
         | 194 :: 1 :: _ => Some (XTest1 RDX, 3)
         | _ => None end)
      else if o =? 168 then (match t with 1 :: _ => Some (XTest1 RAX, 2) | _ => None end)
      else if o =? 235 then (match t with b :: _ => Some (XJmp (i8 b), 2) | _ => None end)
      else if o =? 233 then
        (match take_n 4 t with Some (d, _) => Some (XJmp (s32 (le_val d)), 5) | None => None end)
      else if o =? 209 then
        (match t with 248 :: _ => Some (XSar32 RAX, 2) | 250 :: _ => Some (XSar32 RDX, 2) | _ => None end)
      else if o =? 137 then
        (match t with 209 :: _ => Some (XMov32 RCX RDX, 2) | 194 :: _ => Some (XMov32 RDX RAX, 2) | _ => None end)
      else if o =? 193 then (match t with 250 :: 31 :: _ => Some (XCdq, 3) | _ => None end)
      else if o =? 247 then
        (match t with
         | 249 :: _ => Some (XIdiv32, 2)
         | 192 :: t' => match take_n 4 t' with Some (d, _) => Some (XTestI (s32 (le_val d)), 6) | None => None end
         | _ => None end)
      else if o =? 129 then
        (match t with
         | 56 :: t' => match take_n 4 t' with Some (d, _) => Some (XCmpM (s32 (le_val d)), 6) | None => None end
         | _ => None end)
      else if o =? 141 then
        (match t with
         | 68 :: 0 :: 1 :: _ => Some (XLea32 RAX, 4)
         | 68 :: 18 :: 1 :: _ => Some (XLea32 RDX, 4)
         | _ => None end)
      else if o =? 211 then
        (match t with 224 :: _ => Some (XShlC, 2) | 248 :: _ => Some (XSarC, 2) | _ => None end)
      else if o =? 133 then (match t with 192 :: _ => Some (XTestEax, 2) | _ => None end)
      else if o =? 201 then Some (XLeave, 1)
      else if o =? 195 then Some (XRet, 1)
      else if o =? 85 then Some (XPush, 1)
      else match dec_cc o with
           | Some c => match t with b :: _ => Some (XJcc c (i8 b), 2) | [] => None end
           | None => None
           end
  | [] => None
  end.

Record flags := mkF { f_z : bool; f_s : bool; f_o : bool }.
Definition cond (c : cc) (f : flags) : bool :=
  match c with
  | CO => f_o f
  | CE => f_z f
  | CNE => negb (f_z f)
  | CS => f_s f
  | CL => xorb (f_s f) (f_o f)
  | CGE => negb (xorb (f_s f) (f_o f))
  | CLE => f_z f || xorb (f_s f) (f_o f)
  | CG => negb (f_z f || xorb (f_s f) (f_o f))
  end.

Record xst (W : Type) := mkX {
  x_pc : Z; x_r : reg -> Z; x_f : flags; x_m : Z -> Z; x_w : W }.
Arguments mkX {W}. Arguments x_pc {W}. Arguments x_r {W}. Arguments x_f {W}.
Arguments x_m {W}. Arguments x_w {W}.

Definition setr (r : reg -> Z) (q : reg) (v : Z) : reg -> Z := fun p => if reg_eqb p q then v else r p.
Definition setm (m : Z -> Z) (a v : Z) : Z -> Z := fun b => if b =? a then v else m b.
(** flags of a 64-bit result [v] = u64 of the exact signed result [x] *)
Definition flag_res (v : Z) (o : bool) : flags := mkF (v =? 0) (s64 v <? 0) o.
Definition ovf (x : Z) : bool := negb (in_long x).

(** what the code can ask of the rest of the process *)
Record xhost (W : Type) := mkXH {
  xh_call : W -> Z -> list Z -> res (W * Z);   (* function at an address *)
  xh_load : W -> Z -> res Z;                   (* a word of an object *)
  xh_store : W -> Z -> Z -> res W;             (* writing a word of an object *)
  xh_of : W -> Z -> Z -> bool;                 (* the overflow flag of a shift by more than 1, undefined *)
  xh_reg : W -> reg -> Z; xh_flags : W -> flags; xh_mem : W -> Z -> Z }. (* left behind by a call *)
Arguments xh_call {W}. Arguments xh_load {W}. Arguments xh_store {W}. Arguments xh_of {W}. Arguments xh_reg {W}. Arguments xh_flags {W}. Arguments xh_mem {W}.

Inductive xres (W : Type) := XRun (s : xst W) | XDone (s : xst W).
Arguments XRun {W}. Arguments XDone {W}.

Section Exec.
  Context {W : Type} (X : xhost W) (code : list Z) (S0 : Z).

  Definition exec (i : xi) (len : Z) (s : xst W) : res (xres W) :=
    let pc := x_pc s + len in
    let R := x_r s in
    let a := R RAX in
    let d := R RDX in
    let run r f m := Ok (XRun (mkX pc r f m (x_w s))) in
    let reg q v := run (setr R q v) (x_f s) (x_m s) in
    let regf q v f := run (setr R q v) f (x_m s) in
    match i with
    | XLd q o => let ad := R RBP + o in
                 if ad mod 8 =? 0 then reg q (x_m s ad) else UB
    | XSt q o => let ad := R RBP + o in
                 if ad mod 8 =? 0 then run R (x_f s) (setm (x_m s) ad (R q)) else UB
    | XMovI v => reg RAX v
    | XCall =>
        if negb (R RSP mod 16 =? 0) then UB else
        do r <- xh_call X (x_w s) a [R RDI; R RSI; d; R RCX; R R8; R R9];
        let w := fst r in
        let keep q := match q with RBX | RBP | RSP => true | _ => false end in
        Ok (XRun (mkX pc (setr (fun q => if keep q then R q else xh_reg X w q) RAX (snd r))
                      (xh_flags X w)
                      (fun ad => if ad <? R RSP then xh_mem X w ad else x_m s ad) w))
    | XTest1 q => run R (mkF (negb (Z.odd (R q))) false false) (x_m s)
    | XJcc c o => Ok (XRun (mkX (if cond c (x_f s) then pc + o else pc) R (x_f s) (x_m s) (x_w s)))
    | XJmp o => Ok (XRun (mkX (pc + o) R (x_f s) (x_m s) (x_w s)))
    | XLea => reg RAX (u64 (a + d - 1))
    | XSub => let v := u64 (a - d) in regf RAX v (flag_res v (ovf (s64 a - s64 d)))
    | XInc => let v := u64 (a + 1) in regf RAX v (flag_res v (ovf (s64 a + 1)))
    | XDec => let v := u64 (a - 1) in regf RAX v (flag_res v (ovf (s64 a - 1)))
    | XSar q => let v := u64 (s64 (R q) / 2) in regf q v (flag_res v false)
    | XImul => let x := s64 a * s64 d in
               regf RAX (u64 x) (mkF (f_z (x_f s)) (f_s (x_f s)) (ovf x))
    | XSar32 q => let v := u32 (s32 (R q) / 2) in regf q v (mkF (v =? 0) (s32 v <? 0) false)
    | XMov32 q p => reg q (u32 (R p))
    | XCdq => let v := u32 (s32 d / 2147483648) in regf RDX v (mkF (v =? 0) (s32 v <? 0) false)
    | XIdiv32 =>
        let n := s64 (u32 d * two32 + u32 a) in
        let m := s32 (R RCX) in
        if m =? 0 then UB
        else if (Z.quot n m <? -2147483648) || (2147483647 <? Z.quot n m) then UB
        else run (setr (setr R RAX (u32 (Z.quot n m))) RDX (u32 (Z.rem n m))) (x_f s) (x_m s)
    | XLea32 q => reg RAX (u32 (R q + R q + 1))
    | XNot => reg RAX (two64 - 1 - a)
    | XCmp => let v := u64 (d - a) in run R (flag_res v (ovf (s64 d - s64 a))) (x_m s)
    | XCmpI k => let v := u64 (a - k) in run R (flag_res v (ovf (s64 a - k))) (x_m s)
    | XTestEax => run R (mkF (u32 a =? 0) (s32 a <? 0) false) (x_m s)
    | XNegRax => regf RAX (u64 (- a)) (flag_res (u64 (- a)) (ovf (- s64 a)))
    | XStX o => let ad := u64 (R RBP + a * 8 + o) in
                if ad mod 8 =? 0 then run R (x_f s) (setm (x_m s) ad d) else UB
    | XTest => run R (flag_res a false) (x_m s)
    | XLeave => let sp := R RBP in
                if sp mod 8 =? 0 then run (setr (setr R RSP (u64 (sp + 8))) RBP (x_m s sp)) (x_f s) (x_m s) else UB
    | XRet => if R RSP =? S0 then Ok (XDone s) else UB
    | XPush => let sp := u64 (R RSP - 8) in
               if sp mod 8 =? 0 then run (setr R RSP sp) (x_f s) (setm (x_m s) sp (R RBP)) else UB
    | XMovBp => reg RBP (R RSP)
    | XSubSp n => let v := u64 (R RSP - n) in regf RSP v (flag_res v (ovf (s64 (R RSP) - n)))
    | XAddI n => let v := u64 (a + n) in regf RAX v (flag_res v (ovf (s64 a + n)))
    | XLdA o => do v <- xh_load X (x_w s) (u64 (a + o)); reg RAX v
    | XTestI k => let v := Z.land (u32 a) (u32 k) in run R (mkF (v =? 0) (s32 v <? 0) false) (x_m s)
    | XAndI k => let v := Z.land a (u64 k) in regf RAX v (flag_res v false)
    | XCmpM k => do t <- xh_load X (x_w s) a;
                 let v := u32 (t - k) in
                 run R (mkF (v =? 0) (s32 v <? 0)
                          ((s32 t - k <? -2147483648) || (2147483647 <? s32 t - k))) (x_m s)
    | XStA o => do w <- xh_store X (x_w s) (u64 (a + o)) d; Ok (XRun (mkX pc R (x_f s) (x_m s) w))
    | XMovDx => reg RDX a
    | XMovDxI n => reg RDX (u64 n)
    | XShrDx => let v := u64 d / 2 in regf RDX v (flag_res v (s64 (u64 d) <? 0))
    | XLdX o => do v <- xh_load X (x_w s) (u64 (a + d * 8 + o)); reg RAX v
    | XShlC => let c := R RCX mod 32 in
               let v := u32 (u32 a * 2 ^ c) in
               if c =? 0 then reg RAX (u32 a)
               else regf RAX v (mkF (v =? 0) (s32 v <? 0)
                      (if c =? 1 then (s32 a * 2 <? -2147483648) || (2147483647 <? s32 a * 2) else xh_of X (x_w s) a c))
    | XSarC => let c := R RCX mod 32 in
               let v := u32 (s32 a / 2 ^ c) in
               if c =? 0 then reg RAX (u32 a)
               else regf RAX v (mkF (v =? 0) (s32 v <? 0) (if c =? 1 then false else xh_of X (x_w s) a c))
    end.

  Definition xstep (s : xst W) : res (xres W) :=
    if x_pc s <? 0 then UB else
    match dec (skipn (Z.to_nat (x_pc s)) code) with
    | Some (i, len) => exec i len s
    | None => UB
    end.
  Fixpoint xrun (fuel : nat) (s : xst W) : res (xst W) :=
    match fuel with
    | O => NoFuel
    | S n => match xstep s with
             | Ok (XRun s) => xrun n s
             | Ok (XDone s) => Ok s
             | UB => UB
             | NoFuel => NoFuel
             end
    end.
End Exec.
