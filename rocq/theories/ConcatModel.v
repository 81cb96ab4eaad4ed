(** Model of string concatenation: core/string.c 275-289 potion_str_add over [InternModel]. *)
From Verif Require Import Base Arr GArr KhashModel InternModel.

(** string.c 279-289.  The operands are read as strings without a test: anything that is not
    a string object is undefined here (the method table only guarantees [self]).  [malloc]
    does not fail, and of length 0 gives a buffer: the buffer is freed before the result is
    returned and is modelled by its content.  PN_STR_LEN is the length of the object's
    characters, those after a NUL included. *)
Definition potion_str_add (junk : Z -> skey * unit) (P : pstate) (self x : Z) : res (pstate * Z) :=
  match objs P self, objs P x with
  | Some a, Some b => potion_str2 junk P (a ++ b)
  | _, _ => UB
  end.
