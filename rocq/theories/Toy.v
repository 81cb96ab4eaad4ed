(** A small concrete host world for the examples: references, closures and tuples
    on a heap that only grows.  It plays the part of the runtime in the concrete
    cases beside the theorems about compiled programs; nothing is proved about it. *)
From Verif Require Import Base Arr GArr WordModel NumModel SigModel CompileModel VmModel SrcSpec.

Inductive obj := ORef (v : Z) | OClos (pid : Z) (caps : list Z) | OTup (l : list Z) | OLick (name inner attr : Z)
  | OTab (l : list (Z * Z)).
Definition heap := list obj.
(** names of variables and messages, and the addresses of the objects *)
Definition nm (i : Z) : Z := 131072 + 16 * i.
Definition toy_str (v : Z) : bool := (65536 <=? v) && (v <? 2097152) && (v mod 16 =? 0).
Definition addr (i : Z) : Z := 2097152 + 16 * i.
Definition slot (v : Z) : Z := if (2097152 <=? v) && (v mod 16 =? 0) then (v - 2097152) / 16 else -1.
Definition obj_at (w : heap) (v : Z) : option obj := gnth w (slot v).
Definition alloc (w : heap) (o : obj) : res (heap * Z) := Ok (w ++ [o], addr (zlen w)).
Definition toy_ref (w : heap) (v : Z) : bool := match obj_at w v with Some (ORef _) => true | _ => false end.

Definition toy_prim (p : prim) (w : heap) (args : list Z) : res (heap * Z) :=
  match p, args with
  | P_ref, [v] => if toy_ref w v then Ok (w, v) else alloc w (ORef v)
  | P_deref, [r] => match obj_at w r with Some (ORef v) => Ok (w, v) | _ => UB end
  | P_setref, [r; v] => if toy_ref w r then Ok (gupd w (slot r) (ORef v), PN_NIL) else UB
  | P_closure pid, caps => alloc w (OClos pid caps)
  | P_tuple, [] => alloc w (OTup [])
  | P_push, [t; v] => match obj_at w t with Some (OTup l) => Ok (gupd w (slot t) (OTup (l ++ [v])), t) | _ => UB end
  | P_tuple_at, [t; i] =>
      match obj_at w t, gnth (match obj_at w t with Some (OTup l) => l | _ => [] end) (PN_INT i) with
      | Some (OTup l), Some v => Ok (w, v) | _, _ => UB end
  | P_table_set, [t; k; v] =>
      match obj_at w t with
      | Some (OTab l) => Ok (gupd w (slot t) (OTab ((k, v) :: l)), t)
      | Some (OTup []) => Ok (gupd w (slot t) (OTab [(k, v)]), t)   (* [] becomes a table *)
      | _ => UB end
  | P_table_at, [t; k] =>
      match obj_at w t with
      | Some (OTab l) => Ok (w, match find (fun q => fst q =? k) l with Some q => snd q | None => PN_NIL end)
      | _ => UB end
  | P_lick, [n; i; a] => alloc w (OLick n i a)
  | P_sig_error, _ => Ok (w, nm 1000)
  | _, _ => UB
  end.
Definition toy_kind (sigs : Z -> list Z) (w : heap) (v : Z) : kind :=
  match obj_at w v with
  | Some (OClos pid caps) =>
      match sig_arity toy_str (sigs pid), sig_minargs toy_str (sigs pid) with
      | Ok a, Ok m => KVm pid (Some (sigs pid)) a m caps
      | _, _ => KOther
      end
  | _ => KOther
  end.
Definition toy (sigs : Z -> list Z) : host heap :=
  mkHost heap toy_prim (toy_kind sigs) toy_ref (fun _ v => PN_IS_INT v)
    (fun w v => match obj_at w v with Some (OClos _ _) => true | _ => false end).
(** signatures of the functions of a compiled program *)
Definition sigs_of (tbl : list pb) (pid : Z) : list Z := match gnth tbl pid with Some g => b_sig g | None => [] end.
