(** Model of tuple sorting: core/table.c 740-879. *)
From Verif Require Import Base WordModel Arr TupleModel.

(** The comparison argument: nil, true, false, or a closure whose side effects
    are on an outer state [S] (it is assumed not to modify the tuple). *)
Inductive cmpmode (S : Type) : Type :=
| CmpNil | CmpTrue | CmpFalse | CmpBlock (f : Z -> Z -> S -> S * Z).
Arguments CmpNil {S}.
Arguments CmpTrue {S}.
Arguments CmpFalse {S}.
Arguments CmpBlock {S} f.

Section Sort.
Context {S : Type} (uniq : Z -> Z).  (* PN_UNIQ, potion.h 247 *)

(** the tests of table.c 763, 767, 773, 779 on element [x] and the pivot; the
    comparisons of true/false are on raw unsigned words *)
Definition to_front (c : cmpmode S) (x pivot : Z) (s : S) : S * bool :=
  match c with
  | CmpNil => (s, uniq x <=? uniq pivot)
  | CmpTrue => (s, x <=? pivot)
  | CmpFalse => (s, x >? pivot)
  | CmpBlock f => let '(s', r) := f x pivot s in (s', PN_INT r >? 0)
  end.
(** the loops of table.c 762-764, 766-770, 772-775, 778-781: [n] iterations from [i] *)
Fixpoint partition_loop (c : cmpmode S) (pivot : Z) (i : Z) (n : nat) (s : S) (m : list Z) (index : Z)
  : res (S * list Z * Z) :=
  match n with
  | O => Ok (s, m, index)
  | Datatypes.S n' =>
    do x <- rd m i;
    let '(s', b) := to_front c x pivot s in
    if b then do m' <- SWAP m i index; partition_loop c pivot (i + 1) n' s' m' (index + 1)
    else partition_loop c pivot (i + 1) n' s' m index
  end.
(** table.c 742-790; [from], [to] are unsigned 32-bit.  The upper bound of the
    loop is to-1 when there is no comparison argument (762), else to. *)
Fixpoint sort_internal (c : cmpmode S) (fuel : nat) (s : S) (m : list Z) (from to : Z) : res (S * list Z) :=
  match fuel with
  | O => NoFuel
  | Datatypes.S fuel' =>
    if from <? to then
      let index := from + (to - from) / 2 in
      do pivot <- rd m index;
      do m <- SWAP m index to;
      let bound := match c with CmpNil => to - 1 | _ => to end in
      do (s, m, index) <- partition_loop c pivot from (Z.to_nat (bound - from)) s m from;
      do m <- SWAP m index to;
      do (s, m) <- (if index >? 0 then sort_internal c fuel' s m from (index - 1) else Ok (s, m));
      sort_internal c fuel' s m (index + 1) to
    else Ok (s, m)
  end.
(** table.c 804-814: [len-1] is unsigned *)
Definition tuple_sort (e : env) (t : tuple) (c : cmpmode S) (fuel : nat) (s : S) : res (S * tuple) :=
  do d <- tuple_clone e t;
  do (s, m) <- sort_internal c fuel s (t_mem d) 0 (u32 (t_len t - 1));
  Ok (s, mkT (t_len d) (t_alloc d) m).

(** the tests of table.c 834, 844, 853, 862 on a[j-1] and a[j] *)
Definition out_of_order (c : cmpmode S) (a b : Z) (s : S) : S * bool :=
  match c with
  | CmpNil => (s, uniq a >? uniq b)
  | CmpTrue => (s, a >? b)
  | CmpFalse => (s, a <? b)
  | CmpBlock f => let '(s', r) := f a b s in (s', PN_INT r >? 0)
  end.
(** the inner while loops, table.c 833-837, 843-847, 852-856, 861-865 *)
Fixpoint ins_inner (c : cmpmode S) (j : nat) (s : S) (m : list Z) : res (S * list Z) :=
  match j with
  | O => Ok (s, m)
  | Datatypes.S j' =>
    do a <- rd m (Z.of_nat j'); do b <- rd m (Z.of_nat j);
    let '(s', g) := out_of_order c a b s in
    if g then do m' <- SWAP m (Z.of_nat j) (Z.of_nat j'); ins_inner c j' s' m' else Ok (s', m)
  end.
(** the outer for loops: i = 1, 2, ...; [n] iterations *)
Fixpoint ins_outer (c : cmpmode S) (i n : nat) (s : S) (m : list Z) : res (S * list Z) :=
  match n with
  | O => Ok (s, m)
  | Datatypes.S n' => do (s, m) <- ins_inner c i s m; ins_outer c (Datatypes.S i) n' s m
  end.
(** table.h 13-15 *)
Definition MAX_INS_SORT : Z := 10.
(** table.c 824-879 *)
Definition tuple_ins_sort (t : tuple) (c : cmpmode S) (fuel : nat) (s : S) : res (S * tuple) :=
  do (s, m) <- (if t_len t <? MAX_INS_SORT then ins_outer c 1 (Z.to_nat (t_len t - 1)) s (t_mem t)
                else sort_internal c fuel s (t_mem t) 0 (u32 (t_len t - 1)));
  Ok (s, mkT (t_len t) (t_alloc t) m).
End Sort.
