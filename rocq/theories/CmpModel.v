(** Model of the three-way comparison methods "cmp" and of the "string" methods of the
    primitive types, tuples and licks, as functions on values.

    A value is given by its contents: the methods only read their arguments.  Results of
    cmp are value words, since the C functions return raw C integers in some branches and
    PN_NUM of an integer in others. *)
From Verif Require Import Base Arr WordModel NumModel.

Inductive pv :=
| PNil | PBool (b : bool) | PInt (n : Z)
| PStr (l : list Z)                   (* the bytes before the terminating NUL *)
| PTup (l : list pv)
| PLick (name inner attr : pv)
| PLobby                              (* P->lobby itself *)
| POther (k : Z).                     (* an object whose class defines no cmp: a table, an instance, ... *)

(** outcome of a method call: a word, potion_fatal (exits), or not finished yet *)
Inductive cres := CRet (w : Z) | CFatal | CMore.
(** a C int or long returned as a PN: conversion to unsigned long *)
Definition raw (i : Z) : Z := u64 i.

Section Cmp.
  (** strcmp; the number of the answer "number" gives to the message n (number.c
      403: potion_send(PN_number, n), the message n sent to the string "number");
      the string of other objects *)
  Context (strcmp : list Z -> list Z -> Z) (asked : pv -> Z) (other_string : pv -> list Z).

  (** number.c 252-262 potion_num_string (integers), primitive.c 72-77, 85 (nil answers
      the string stored under "string"), string.c 133, table.c 541-556, lick.c 54-67;
      string.c 384-386 potion_bytes_obj_string; the buffer is a list of bytes (C30) *)
  Definition s_comma : list Z := [44; 32].
  Definition each_str (f : pv -> list Z) : Z -> list pv -> list Z :=
    fix go (i : Z) (l : list pv) : list Z :=
    match l with
    | [] => []
    | v :: l => (if 0 <? i then s_comma else []) ++ f v ++ go (i + 1) l
    end.
  Definition is_lick (v : pv) : bool := match v with PLick _ _ _ => true | _ => false end.
  Definition is_nil (v : pv) : bool := match v with PNil => true | _ => false end.
  Fixpoint vstring (v : pv) : list Z :=
    match v with
    | PNil => [110; 105; 108]
    | PBool b => if b then [116; 114; 117; 101] else [102; 97; 108; 115; 101]
    | PInt n => sprintf_ld n
    | PStr l => l
    | PTup l =>
        let licks := zlen (filter is_lick l) in
        let all := (0 <? licks) && (licks =? zlen l) in
        let body := each_str vstring 0 l in
        (if all then [91] else [40]) ++ body ++ (if all then [93] else [41])
    | PLick n i a =>
        vstring n ++ (if is_nil i then [] else 32 :: vstring i) ++ (if is_nil a then [] else 32 :: vstring a)
    | PLobby | POther _ => other_string v
    end.
  (** table.c 518-526 potion_tuple_join *)
  Fixpoint each_join (sep : pv) (i : Z) (l : list pv) : list Z :=
    match l with
    | [] => []
    | v :: l => (if (0 <? i) && negb (is_nil sep) then vstring sep else []) ++ vstring v ++ each_join sep (i + 1) l
    end.
  Definition tuple_join (l : list pv) (sep : pv) : list Z := each_join sep 0 l.

  (** number.c 396-408 potion_num_cmp, integer receiver *)
  Definition vnum_cmp (n : Z) (v : pv) : cres :=
    let n2 := match v with PInt m => m | _ => asked v end in
    CRet (if n <? n2 then PN_NUM (-1) else if n =? n2 then PN_ZERO else PN_NUM 1).
  (** string.c 479-485 potion_str_cmp *)
  Definition vstr_cmp (l : list Z) (v : pv) : cres :=
    CRet (PN_NUM (match v with PStr l' => strcmp l l' | _ => strcmp l (vstring v) end)).
  (** primitive.c 52-64 potion_bool_cmp (PN_FALSE = 2 < PN_TRUE = 6) *)
  Definition vbool_cmp (b : bool) (v : pv) : cres :=
    match v with
    | PBool b' => CRet (if negb b && b' then raw (-1) else if Bool.eqb b b' then raw 0 else raw 1)
    | PInt _ => vnum_cmp (if b then 1 else 0) v
    | _ => CRet (raw 1)
    end.
  (** primitive.c 37-50 potion_nil_cmp *)
  Definition vnil_cmp (v : pv) : cres :=
    match v with
    | PNil => CRet (raw 0)
    | PInt _ => vnum_cmp 0 v
    | PBool _ => vbool_cmp false v
    | PStr _ => vstr_cmp [] v
    | _ => CRet (PN_NUM (-1))
    end.
  (** sending "cmp": the method of the receiver's class; primitive.c 27-31 potion_any_cmp
      is the one of the lobby, the root of all classes; table.c 882-915 potion_tuple_cmp *)
  Fixpoint vcmp (n : nat) (a v : pv) : cres :=
    match n with
    | O => CMore
    | S n =>
      match a with
      | PNil => vnil_cmp v
      | PBool b => vbool_cmp b v
      | PInt i => vnum_cmp i v
      | PStr l => vstr_cmp l v
      | PTup l =>
          match v with
          | PBool b => CRet (if b then raw 1 else raw (-1))
          | PNil => CRet (raw (-1))
          | PTup l' =>
              match l, l' with
              | x :: _, y :: _ =>
                  match vcmp n x y with
                  | CRet c => if c =? PN_ZERO then vcmp n (PTup (removelast l)) (PTup (removelast l')) else CRet c
                  | r => r
                  end
              | _, _ => CRet (match l', l with _ :: _, _ => raw (-1) | [], _ :: _ => raw 1 | [], [] => raw 0 end)
              end
          | _ => CFatal
          end
      | PLobby => CRet (match v with PLobby => PN_NUM 0 | _ => PN_NUM 1 end)
      | PLick _ _ _ | POther _ => vcmp n a v
      end
    end.
End Cmp.
