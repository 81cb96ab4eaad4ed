(** Model of the tagged value words of core/potion.h. *)
From Verif Require Import Base.

(** potion.h:148-151 (PN_NIL, PN_ZERO, PN_FALSE, PN_TRUE) *)
Definition PN_NIL : Z := 0.
Definition PN_ZERO : Z := 1.
Definition PN_FALSE : Z := 2.
Definition PN_TRUE : Z := 6.

(** potion.h:213  PN_NUM(i) = ((unsigned long)i << 1) + 1 *)
Definition PN_NUM (i : Z) : Z := u64 (u64 (u64 i * 2) + 1).
(** potion.h:214  PN_INT(x) = ((long)(unsigned long)x) >> 1, arithmetic shift *)
Definition PN_INT (x : Z) : Z := Z.shiftr (s64 (u64 x)) 1.

(** potion.h:171 *)
Definition PN_IS_INT (v : Z) : bool := negb (Z.land v 1 =? 0).
(** potion.h:170 *)
Definition PN_IS_BOOL (v : Z) : bool := negb (Z.land v 2 =? 0).
(** potion.h:169 *)
Definition PN_IS_NIL (v : Z) : bool := v =? PN_NIL.
(** potion.h:168,153: !PN_IS_INT(v) && (v & ~7); ~7 is the int -8 converted to 64 bits *)
Definition PN_IS_PTR (v : Z) : bool := negb (PN_IS_INT v) && negb (Z.land v (u64 (-8)) =? 0).
(** potion.h:164 *)
Definition PN_TEST (v : Z) : bool := negb (v =? PN_FALSE) && negb (v =? PN_NIL).
(** potion.h:167 *)
Definition PN_BOOL (b : bool) : Z := if b then PN_TRUE else PN_FALSE.

(** vm.c:758 OP_NOT (non-P2 build) *)
Definition vm_not (v : Z) : Z := PN_BOOL (negb (PN_TEST v)).
(** vm.c:791 OP_TEST *)
Definition vm_test (v : Z) : Z := PN_BOOL (PN_TEST v).

(** potion.h:116-139 type numbers *)
Definition PN_TNIL : Z := 2424832.
Definition PN_TNUMBER : Z := 1 + PN_TNIL.
Definition PN_TBOOLEAN : Z := 2 + PN_TNIL.
Definition PN_TDOUBLE : Z := 3 + PN_TNIL.
Definition PN_TINTEGER : Z := 4 + PN_TNIL.
Definition PN_TSTRING : Z := 5 + PN_TNIL.
Definition PN_TWEAK : Z := 6 + PN_TNIL.
Definition PN_TCLOSURE : Z := 7 + PN_TNIL.
Definition PN_TTUPLE : Z := 8 + PN_TNIL.
Definition PN_TSTATE : Z := 9 + PN_TNIL.
Definition PN_TFILE : Z := 10 + PN_TNIL.
Definition PN_TOBJECT : Z := 11 + PN_TNIL.
Definition PN_TVTABLE : Z := 12 + PN_TNIL.
Definition PN_TSOURCE : Z := 13 + PN_TNIL.
Definition PN_TBYTES : Z := 14 + PN_TNIL.
Definition PN_TPROTO : Z := 15 + PN_TNIL.
Definition PN_TLOBBY : Z := 16 + PN_TNIL.
Definition PN_TTABLE : Z := 17 + PN_TNIL.
Definition PN_TLICK : Z := 18 + PN_TNIL.
Definition PN_TFLEX : Z := 19 + PN_TNIL.
Definition PN_TSTRINGS : Z := 20 + PN_TNIL.
Definition PN_TERROR : Z := 21 + PN_TNIL.
Definition PN_TCONT : Z := 22 + PN_TNIL.
Definition PN_TUSER : Z := 23 + PN_TNIL.
(** potion.h:155 *)
Definition POTION_FWD : Z := 4294967294.
Definition POTION_COPIED : Z := 4294967295.

(** One heap object as potion_type sees it: first word (vt or fwd marker) and the
    word at offset 8 (the forwarding address when the marker is POTION_FWD). *)
Record hdr := { h_vt : Z; h_ptr : Z }.

(** potion.h:532-546 potion_type: the chain of forwarding stubs is followed with
    fuel; reading an address where there is no object is undefined. *)
Fixpoint type_chase (fuel : nat) (heap : Z -> option hdr) (a : Z) : res Z :=
  match fuel with
  | O => NoFuel
  | S f => match heap a with
           | None => UB
           | Some h => if h_vt h =? POTION_FWD then type_chase f heap (h_ptr h) else Ok (h_vt h)
           end
  end.
Definition potion_type (fuel : nat) (heap : Z -> option hdr) (v : Z) : res Z :=
  if PN_IS_INT v then Ok PN_TNUMBER
  else if PN_IS_BOOL v then Ok PN_TBOOLEAN
  else if PN_IS_NIL v then Ok PN_TNIL
  else type_chase fuel heap v.

(** potion.h:570-574 potion_fwd *)
Fixpoint potion_fwd (fuel : nat) (heap : Z -> option hdr) (v : Z) : res Z :=
  match fuel with
  | O => NoFuel
  | S f => if PN_IS_PTR v
           then match heap v with
                | None => UB
                | Some h => if h_vt h =? POTION_FWD then potion_fwd f heap (h_ptr h) else Ok v
                end
           else Ok v
  end.

(** potion.h:245  PN_NUMHASH(x) = (PNUniq)(x>>33 ^ x ^ x<<11), PNUniq is 32 bits *)
Definition PN_NUMHASH (x : Z) : Z :=
  u32 (Z.lxor (Z.lxor (Z.shiftr x 33) x) (u64 (Z.shiftl x 11))).

(** potion.h:232 PN_ALIGN(o,x) on unsigned operands, o >= 1 *)
Definition PN_ALIGN (o x : Z) : Z := ((o - 1) / x + 1) * x.

(** potion.h:418-438 / vm.c:418-438 equality of two words neither of which is a
    double: for pointers both sides are forwarded.  Here: words that are already
    resolved (immediates, or pointers to non-forwarded objects). *)
Definition vm_eq_imm (a b : Z) : Z := PN_BOOL (a =? b).
Definition vm_neq_imm (a b : Z) : Z := PN_BOOL (negb (a =? b)).
