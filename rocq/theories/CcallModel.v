(** Model of the entry by which C code calls a function written in the language:
    core/vm.c 159-198 potion_vm_proto, with potion_type (core/potion.h 532-548),
    potion_type_char (core/internal.c 206-234) and PN_IS_FFIPTR (core/potion.h
    181-182).

    The signature is a tuple of words as in SigModel.  [is_str] tells which words
    are strings and [vt] the type word of the object at an address (after following
    forwarding pointers); [mem] and [hi] are the addresses P->mem and
    P->mem->birth_hi.  The variable arguments are the list of words the caller
    wrote behind self: va_arg past its end is undefined (C11 7.16.1.1). *)
From Verif Require Import Base Arr WordModel SigModel.

Section Ccall.
Variable is_str : Z -> bool.
Variable vt : Z -> Z.
Variables mem hi : Z.

(** potion.h 112-136 *)
Definition TNIL : Z := 2424832.                (* 0x250000 *)
Definition TNUMBER : Z := 1 + TNIL.
Definition TBOOLEAN : Z := 2 + TNIL.
(** potion.h 532-548 potion_type *)
Definition type_of (w : Z) : Z :=
  if PN_IS_INT w then TNUMBER
  else if negb (Z.land w 2 =? 0) then TBOOLEAN
  else if w =? PN_NIL then TNIL
  else vt w.
(** internal.c 206-234 potion_type_char: n N B D I S (none) & u s F o t a b P l T k f x r c,
    and m for every other type.  The case labels are the names of the types, and
    PN_TDOUBLE is 3, PN_TINTEGER 4 *)
Definition type_char (t : Z) : Z :=
  let i := t - TNIL in
  if (0 <=? i) && (i <? 23) then
    nth (Z.to_nat i) [110; 78; 66; 68; 73; 83; 0; 38; 117; 115; 70; 111; 116; 97; 98; 80; 108; 84; 107; 102; 120; 114; 99] 109
  else 109.
(** potion.h 181-182 PN_IS_FFIPTR *)
Definition is_ffiptr (p : Z) : bool :=
  (PN_IS_PTR p && negb ((mem <=? p) && (p <=? hi))) || (negb (PN_IS_PTR p) && (hi <? p)).

(** vm.c 176-192: one argument.  [i < minargs || PN_TUPLE_LEN(s) < 2] takes the
    argument as it is *)
Definition one_arg (STR0 : Z) (t : list Z) (minargs numargs i arg : Z) : res Z :=
  do s <- sig_at is_str t i;
  if (i <? minargs) || (zlen s <? 2) then Ok arg
  else
    do type <- (if zlen s >? 2 then do d <- rd s 2; Ok (type_char (type_of d))
                else do ty <- rd s 1; Ok (PN_INT ty mod 256));
    if (negb (numargs =? 0) && (i >=? numargs))
       || is_ffiptr arg
       || (negb (type =? 0) && negb (type_char (type_of arg) =? type))
    then if zlen s =? 3 then rd s 2 else Ok (type_default STR0 type)
    else Ok arg.
(** vm.c 174-193: the loop *)
Fixpoint args_loop (STR0 : Z) (t : list Z) (minargs numargs i : Z) (n : nat) (va acc : list Z) : res (list Z) :=
  match n with
  | O => Ok acc
  | S n => match va with
           | [] => UB
           | arg :: va => do a <- one_arg STR0 t minargs numargs i arg;
                          args_loop STR0 t minargs numargs (i + 1) n va (acc ++ [a])
           end
  end.
(** vm.c 159-198 potion_vm_proto, up to the call of potion_vm: the receiver and the
    arguments the function body runs with.  [t] is None when the signature is not a
    tuple; arity and minargs are the closure's, which potion_closure_new computed
    from the same signature (objmodel.c 17-32) *)
Definition vm_proto (STR0 : Z) (t : option (list Z)) (self : Z) (va : list Z) : res (Z * option (list Z)) :=
  match t with
  | None => Ok (self, None)
  | Some t =>
      do arity <- sig_arity is_str t;
      do minargs <- sig_minargs is_str t;
      let '(numargs, self) := if self <? 10 then (self, 0) else (0, self) in
      do ary <- args_loop STR0 t minargs numargs 0 (Z.to_nat arity) va [];
      Ok (self, Some ary)
  end.
End Ccall.
