(** Model of the machine code for captured variables and shifts: core/vm-x86.c
    505-556 (getlocal, setlocal, getupval, setupval), 448-460 (upvals), 1064-1091
    (binding of the captured variables in OP_PROTO), 797-822 (bitl, bitr); 64-bit
    build.  The bytes are those of the C macros. *)
From Verif Require Import Base Arr WordModel AsmModel JitModel.

(** potion.h 116, 122 *)
Definition PN_TWEAK : Z := 2424838.
Section Up.
  Context (addr : cfun -> Z).
  (** vm-x86.c 510-518, 528-535: is the word in rax a reference?  If not, skip [k] (4 bytes) *)
  Definition ref_test (k : list Z) : list Z :=
    [246; 192; 1] ++ [117; 20] ++ ([247; 192] ++ ASMI PN_REF_MASK) ++ [116; 12] ++ ([129; 56] ++ ASMI PN_TWEAK) ++ [117; 4] ++ k.
  (** 505-520 potion_x86_getlocal with up *)
  Definition getlocal_up (regs a b : Z) : list Z :=
    mov_rbp 139 (regs + b) ++ ref_test [72; 139; 64; 8] ++ mov_rbp 137 a.
  (** 524-538 potion_x86_setlocal with up *)
  Definition setlocal_up (regs a b : Z) : list Z :=
    ([72; 139] ++ mov_ebp 85 a) ++ mov_rbp 139 (regs + b) ++ ref_test [72; 137; 80; 8] ++ ([72; 137] ++ mov_ebp 85 (regs + b)).
  (** 541-546 potion_x86_getupval, 550-555 potion_x86_setupval *)
  Definition getupval (lregs a b : Z) : list Z := mov_rbp 139 (lregs + b) ++ [72; 139; 64; 8] ++ mov_rbp 137 a.
  Definition setupval (lregs a b : Z) : list Z := ([72; 139] ++ mov_ebp 85 a) ++ mov_rbp 139 (lregs + b) ++ [72; 137; 80; 8].
  (** 453, 1086: the offset of captured variable [i] in a closure, sizeof(struct PNClosure) = 48 *)
  Definition up_off (i : Z) : Z := 48 + (i + 1) * 8.
  Definition up_disp (short : Z) (n : Z) : list Z := if 128 <=? n then (short + 64) :: ASMI n else [short; n].
  (** 449-459 potion_x86_upvals: [n] more captured variables from [i] on *)
  Fixpoint upvals_from (lregs start i : Z) (n : nat) : list Z :=
    match n with
    | O => []
    | S n => mov_rbp 139 (start - 2) ++ ([72; 139] ++ up_disp 64 (up_off i)) ++ mov_rbp 137 (lregs + i) ++ upvals_from lregs start (i + 1) n
    end.
  Definition x86_upvals (lregs start upc : Z) : list Z := upvals_from lregs start 0 (Z.to_nat upc).
  (** 1064-1091: captured variable [i] of the closure in register [a] is local [b] *)
  Definition bind_local (regs start a b i : Z) : list Z :=
    argo (start - 3) 0 ++ argo (regs + b) 1 ++ callf addr F_ref ++ [72; 137; 194] ++ mov_rbp 137 (regs + b) ++
    mov_rbp 139 a ++ ([72; 137] ++ up_disp 80 (up_off i)).
  (** ... or captured variable [b] of the running function *)
  Definition bind_upval (lregs a b i : Z) : list Z :=
    ([72; 139] ++ mov_ebp 85 (lregs + b)) ++ mov_rbp 139 a ++ ([72; 137] ++ up_disp 80 (up_off i)).
  (** 797-822 potion_x86_bitl, potion_x86_bitr *)
  Definition shift_ops (right : bool) : list Z :=
    [209; 248; 209; 250; 137; 209; 137; 194; 211; if right then 248 else 224] ++ [112; 6] ++ [141; 68; 0; 1].
  Definition x86_shift (right : bool) (start a b : Z) : list Z :=
    x86_math addr true (if right then F_obj_bitr else F_obj_bitl) (shift_ops right) start a b.
End Up.
