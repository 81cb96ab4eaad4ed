(** Model of the text of a signature: core/compile.c 60-95 potion_sig_string and
    core/objmodel.c 52-60 potion_closure_string.  The output buffer is a list of bytes
    (C30); [text v] is what potion_bytes_obj_string appends for a value. *)
From Verif Require Import Base WordModel.

Section SigString.
  Context (text : Z -> list Z).
  (** compile.c 69-92: one round per word of the tuple; [comma], [nextdef] as in the code *)
  Fixpoint sig_loop (t : list Z) (comma nextdef : bool) : list Z :=
    match t with
    | [] => []
    | v :: t =>
        if PN_IS_INT v then
          let c := s32 (PN_INT v) in               (* 73: comma = 0 *)
          if c =? 46 then 46 :: sig_loop t false nextdef
          else if c =? 124 then 124 :: sig_loop t false nextdef
          else if c =? 58 then 58 :: sig_loop t false true
          else if nextdef then 61 :: text v ++ sig_loop t true false       (* 81-84: comma++ is 0 here *)
          else 61 :: (c mod 256) :: sig_loop t true false                         (* 86: "=%c" *)
        else
          (if comma then [44] else []) ++ (if nextdef then [61] else []) ++ text v ++ sig_loop t true false
    end.
  (** compile.c 60-95; a signature that is not a tuple has no text *)
  Definition sig_string (sig : option (list Z)) : list Z :=
    match sig with Some t => sig_loop t false false | None => [] end.
  (** objmodel.c 52-60; None: no name *)
  Definition closure_string (name : option (list Z)) (sig : option (list Z)) : list Z :=
    [102; 117; 110; 99; 116; 105; 111; 110] ++ match name with Some n => 32 :: n | None => [] end ++ [40] ++ sig_string sig ++ [41].
End SigString.
