(** Model of the instruction encoding and of the code buffer: core/asm.c,
    core/opcodes.h 64-88, core/asm.h 17-18, core/internal.h 34-49, and of the
    choice between an inline and a table constant: core/compile.c 352-356,
    401-404 with core/vm.c 698-699.

    A code buffer is a PNAsm: [alen] bytes used of [amem], whose length is the
    [siz] field.  Newly allocated or grown memory holds arbitrary bytes. *)
From Verif Require Import Base Arr WordModel BytesModel.

Record casm := mkAsm { alen : Z; asiz : Z; amem : list Z }.

(** asm.h 17; sizeof(PNAsm) = 16 (potion.h 586) *)
Definition ASM_UNIT : Z := 512.
(** asm.h 18 *)
Definition ASM_TPL_IMM : Z := 1024.

(** a 32-bit PN_OP (opcodes.h 74-80, pack 1, little endian, gcc bitfield
    layout): 8 bits of code, 12 bits of a, 12 bits of b *)
Definition op_word (code a b : Z) : Z :=
  code mod 256 + (a mod 4096) * 256 + (b mod 4096) * 1048576.
(** reading a signed 12-bit bitfield *)
Definition sx12 (x : Z) : Z := (x + 2048) mod 4096 - 2048.
Record pnop := mkOp { ocode : Z; oa : Z; ob : Z }.
Definition op_unword (w : Z) : pnop :=
  mkOp (w mod 256) (sx12 (w / 256)) (sx12 (w / 1048576)).

(** n bytes of a machine word, little endian *)
Fixpoint le (n : nat) (v : Z) : list Z :=
  match n with O => [] | S n' => v mod 256 :: le n' (v / 256) end.
Fixpoint unle (l : list Z) : Z :=
  match l with [] => 0 | b :: l' => b + 256 * unle l' end.

(** asm.c 13-18 with internal.h 34-37 *)
Definition asm_new (junk : Z -> list Z) : casm :=
  let siz := ASM_UNIT - 16 in mkAsm 0 siz (junk siz).
(** internal.h 39-49: [while (capa < len + X) capa += S]; capa is unsigned int *)
Fixpoint grow_capa (fuel : nat) (capa need : Z) : res Z :=
  match fuel with
  | O => NoFuel
  | S f => if capa <? need then grow_capa f (u32 (capa + ASM_UNIT)) need else Ok capa
  end.
Definition flex_needs (fuel : nat) (junk : Z -> list Z) (x : Z) (b : casm) : res casm :=
  let capa := asiz b in
  if capa <? alen b + x then
    do capa <- grow_capa fuel capa (alen b + x);
    Ok (mkAsm (alen b) capa (amem b ++ junk (capa - asiz b)))
  else Ok b.
(** fuel that suffices for any buffer below 4 GB *)
Definition asm_fuel (b : casm) (x : Z) : nat := S (Z.to_nat (alen b + x)).

(** asm.c 26-42: sizes 1, 2, 4, 8 are stored, any other size only advances *)
Definition asm_put (junk : Z -> list Z) (b : casm) (val len : Z) : res casm :=
  do b <- flex_needs (asm_fuel b len) junk len b;
  do mem <- (if (len =? 1) || (len =? 2) || (len =? 4) || (len =? 8)
             then blit (amem b) (alen b) (le (Z.to_nat len) val) else Ok (amem b));
  Ok (mkAsm (u32 (alen b + len)) (asiz b) mem).
(** asm.c 44-55; [ins] is a u8, [_a] and [_b] are ints *)
Definition asm_op (junk : Z -> list Z) (b : casm) (ins a' b' : Z) : res casm :=
  do b <- flex_needs (asm_fuel b 4) junk 4 b;
  do mem <- blit (amem b) (alen b) (le 4 (op_word ins a' b'));
  Ok (mkAsm (u32 (alen b + 4)) (asiz b) mem).
(** asm.c 57-64 *)
Definition asm_write (junk : Z -> list Z) (b : casm) (str : list Z) : res casm :=
  do b <- flex_needs (asm_fuel b (zlen str)) junk (zlen str) b;
  do mem <- blit (amem b) (alen b) str;
  Ok (mkAsm (u32 (alen b + zlen str)) (asiz b) mem).
(** asm.c 20-24 *)
Definition asm_clear (b : casm) : casm := mkAsm 0 (asiz b) (repeat 0 (Z.to_nat (asiz b))).

(** opcodes.h 87-88 *)
Definition PN_OP_LEN (b : casm) : Z := alen b / 4.
Definition PN_OP_AT (b : casm) (n : Z) : res pnop :=
  do b0 <- rd (amem b) (4 * n); do b1 <- rd (amem b) (4 * n + 1);
  do b2 <- rd (amem b) (4 * n + 2); do b3 <- rd (amem b) (4 * n + 3);
  Ok (op_unword (unle [b0; b1; b2; b3])).
(** [PN_OP_AT(asmb, n).b = v] and [.a = v] (jump patching, e.g. compile.c 580,
    586, 787, 793): read, replace one bitfield, write back *)
Definition op_set_a (b : casm) (n v : Z) : res casm :=
  do o <- PN_OP_AT b n;
  do mem <- blit (amem b) (4 * n) (le 4 (op_word (ocode o) v (ob o)));
  Ok (mkAsm (alen b) (asiz b) mem).
Definition op_set_b (b : casm) (n v : Z) : res casm :=
  do o <- PN_OP_AT b n;
  do mem <- blit (amem b) (4 * n) (le 4 (op_word (ocode o) (oa o) v));
  Ok (mkAsm (alen b) (asiz b) mem).

(** opcodes.h 10-61 (the ones used here) *)
Definition OP_LOADK : Z := 2.
Definition OP_LOADPN : Z := 3.

(** PN_PUT = potion_tuple_push_unless (core/table.c) on the constant table: index of the value,
    appended when absent.  Modelled on the list of entries here; the buffer-level
    model and its correctness are in TupleModel / PropTuple. *)
Fixpoint vfind (l : list Z) (v : Z) : option Z :=
  match l with
  | [] => None
  | x :: l' => if x =? v then Some 0 else match vfind l' v with Some i => Some (1 + i) | None => None end
  end.
Definition vput (values : list Z) (v : Z) : list Z * Z :=
  match vfind values v with Some i => (values, i) | None => (values ++ [v], zlen values) end.

(** compile.c 352-356 and 401-404: the literal [v] (a PN: an immediate, or a
    pointer to a string, number, ... but not to a lick) into register [reg] *)
Definition emit_value (junk : Z -> list Z) (b : casm) (values : list Z) (reg v : Z)
  : res (casm * list Z) :=
  if negb (PN_IS_PTR v) && (v =? u64 (sx12 v)) then
    do b <- asm_op junk b OP_LOADPN reg v; Ok (b, values)
  else
    let (values, num) := vput values v in
    do b <- asm_op junk b OP_LOADK reg num; Ok (b, values).
(** vm.c 698-699: what one of these two instructions puts into register a *)
Definition vm_load (values : list Z) (o : pnop) : res Z :=
  if ocode o =? OP_LOADPN then Ok (u64 (ob o))
  else if ocode o =? OP_LOADK then rd values (ob o) else UB.
