(** Model of the tuple (list) type, core/table.c 285-716 and 722-738.

    A tuple object (core/potion.h 477-482) is its [len] field, its [alloc]
    field and the physical words of its allocation behind the header.  Words
    are opaque [Z]s.  The forwarding pointer of potion_fwd (potion.h 570-574)
    and the write barrier PN_TOUCH are not represented here (see GcModel). *)
From Verif Require Import Base WordModel Arr.

Record tuple := mkT { t_len : Z; t_alloc : Z; t_mem : list Z }.

(** What the memory contains that the program did not write: the initial
    contents of a fresh allocation, and the word following the allocation
    ([None]: the allocation ends at the end of mapped memory). *)
Record env := mkE { e_junk : nat -> Z; e_after : option Z }.

(** core/potion.h 700-721 potion_gc_alloc for PN_ALLOC_N(PN_TTUPLE, struct PNTuple, n*8):
    n words behind the 16 byte header; the size parameter is an [int], so a
    larger request is outside this model. *)
Definition words_ok (n : Z) : bool := (0 <=? n) && (16 + 8 * n <? 2147483648).
Definition alloc_words (e : env) (n : Z) : res (list Z) :=
  if words_ok n then Ok (map (e_junk e) (seq 0 (Z.to_nat n))) else UB.

(** core/potion.h 740-760 potion_gc_realloc of a tuple to 16+8n bytes:
    the old size comes from the [alloc] field (gc.c 347-349); if it suffices
    the object stays, else the contents are copied to a new allocation. *)
Definition realloc_words (e : env) (t : tuple) (n : Z) : res (list Z) :=
  if t_alloc t >=? n then Ok (t_mem t)
  else do fresh <- alloc_words e n;
       if zlen (t_mem t) <? t_alloc t then UB
       else Ok (ztake (t_alloc t) (t_mem t) ++ zdrop (t_alloc t) fresh).

(** memory reads as performed by memmove/memcpy: one word past the allocation
    may be read if it is mapped *)
Definition rd_after (e : env) (m : list Z) (i : Z) : res Z :=
  if i =? zlen m then match e_after e with Some g => Ok g | None => UB end else rd m i.
Fixpoint rd_run (e : env) (m : list Z) (i : Z) (n : nat) : res (list Z) :=
  match n with
  | O => Ok []
  | S n' => do x <- rd_after e m i; do r <- rd_run e m (i + 1) n'; Ok (x :: r)
  end.
Fixpoint wr_run (m : list Z) (i : Z) (ws : list Z) : res (list Z) :=
  match ws with
  | [] => Ok m
  | w :: r => do m' <- wr m i w; wr_run m' (i + 1) r
  end.
(** internal.h 23 PN_MEMMOVE_N(&t->set[dst], &t->set[src], PN, n); a negative
    count is a huge size_t *)
Definition memmove (e : env) (m : list Z) (dst src n : Z) : res (list Z) :=
  if n <? 0 then UB else do ws <- rd_run e m src (Z.to_nat n); wr_run m dst ws.
(** internal.h 22 PN_MEMCPY_N(dst->set, &src->set[i], PN, n) *)
Definition memcpy (e : env) (dst src : list Z) (i n : Z) : res (list Z) :=
  if n <? 0 then UB else do ws <- rd_run (mkE (e_junk e) None) src i (Z.to_nat n); wr_run dst 0 ws.

(** table.c 16-18 NEW_TUPLE *)
Definition NEW_TUPLE (e : env) (n : Z) : res tuple :=
  do m <- alloc_words e n; Ok (mkT n n m).
(** table.c 291-296 *)
Definition tuple_empty (e : env) : res tuple :=
  do t <- NEW_TUPLE e 3; Ok (mkT 0 (t_alloc t) (t_mem t)).
(** table.c 298-301 *)
Definition tuple_with_size (e : env) (n : Z) : res tuple := NEW_TUPLE e n.
(** table.c 303-308 *)
Definition tuple_new (e : env) (v : Z) : res tuple :=
  do t <- NEW_TUPLE e 3; do m <- wr (t_mem t) 0 v; Ok (mkT 1 (t_alloc t) m).

(** table.c 310-321 *)
Definition tuple_push (e : env) (t : tuple) (v : Z) : res tuple :=
  do t1 <- (if t_len t >=? t_alloc t
            then do m <- realloc_words e t (u32 (t_len t * 2));
                 Ok (mkT (t_len t) (u32 (t_len t * 2)) m)
            else Ok t);
  do m <- wr (t_mem t1) (t_len t1) v;
  Ok (mkT (u32 (t_len t1 + 1)) (t_alloc t1) m).

(** potion.h 288-297 PN_TUPLE_EACH: for (I = 0; I < len; I++) over a body that
    may return early ([inr]) or continue with a new state ([inl]) *)
Fixpoint tuple_each_from {S R} (m : list Z) (i : Z) (n : nat)
    (body : Z -> Z -> S -> res (S + R)) (s : S) : res (S + R) :=
  match n with
  | O => Ok (inl s)
  | S n' => do v <- rd m i; do x <- body i v s;
            match x with
            | inr r => Ok (inr r)
            | inl s' => tuple_each_from m (i + 1) n' body s'
            end
  end.
Definition TUPLE_EACH {S R} (t : tuple) (body : Z -> Z -> S -> res (S + R)) (s : S) : res (S + R) :=
  tuple_each_from (t_mem t) 0 (Z.to_nat (t_len t)) body s.

(** potion.h 154 *)
Definition PN_NONE : Z := 4294967295.
(** table.c 336-342 *)
Definition tuple_find (t : tuple) (v : Z) : res Z :=
  do x <- TUPLE_EACH t (fun i w (_ : unit) => Ok (if w =? v then inr i else inl tt)) tt;
  match x with inr i => Ok i | inl _ => Ok PN_NONE end.
(** table.c 346-353 *)
Definition tuple_push_unless (e : env) (t : tuple) (v : Z) : res (tuple * Z) :=
  do idx <- tuple_find t v;
  if negb (idx =? PN_NONE) then Ok (t, idx)
  else do t' <- tuple_push e t v; Ok (t', u32 (t_len t' - 1)).

(** table.c 365-371; [index] is a boxed integer *)
Definition tuple_at (t : tuple) (index : Z) : res Z :=
  let i := PN_INT index in let len := t_len t in
  let i := if i <? 0 then i + len else i in
  if i >=? len then Ok PN_NIL else rd (t_mem t) i.

(** table.c 377-385 *)
Definition tuple_clone (e : env) (t : tuple) : res tuple :=
  do t2 <- NEW_TUPLE e (t_len t);
  do m <- memcpy e (t_mem t2) (t_mem t) 0 (t_len t);
  Ok (mkT (t_len t2) (t_len t) m).

(** table.c 403-432; [start]/[end] are boxed integers or nil (0);
    [None] is the nil result *)
Definition tuple_slice (e : env) (t : tuple) (start end_ : Z) : res (option tuple) :=
  if start =? 0 then do c <- tuple_clone e t; Ok (Some c)
  else
    let i := PN_INT start in
    let i := if i <? 0 then t_len t + i else i in
    let '(i, l) :=
      if end_ =? 0 then (i, t_len t - i)
      else
        let en := PN_INT end_ in
        let en := if en <? 0 then t_len t + en else en in
        let l := en - i in
        let '(i, l) := if l <? 0 then (en, Z.abs l + 1) else (i, l + 1) in
        (i, if l >? t_len t then t_len t else l) in
    if (l =? 0) || (i >=? t_len t) then Ok None
    else do t2 <- NEW_TUPLE e l;
         do m <- memcpy e (t_mem t2) (t_mem t) i l;
         Ok (Some (mkT (t_len t2) l m)).

(** A block (closure) is a C function called with element arguments; its side
    effects are on an arbitrary outer state [S] (it is assumed not to modify the
    tuple being walked). *)
Definition block1 (S : Type) := Z -> S -> res (S * Z).
Definition block2 (S : Type) := Z -> Z -> S -> res (S * Z).

(** table.c 439-449; [with_index] = the block's arity is at least 2 *)
Definition tuple_each {S} (t : tuple) (with_index : bool) (b1 : block1 S) (b2 : block2 S) (s : S) : res S :=
  do x <- TUPLE_EACH (R := Empty_set) t (fun i v s =>
     if with_index then do (s', _) <- b2 v (PN_NUM i) s; Ok (inl s')
     else do (s', _) <- b1 v s; Ok (inl s')) s;
  match x with inl s' => Ok s' | inr r => match r with end end.

(** table.c 456-464 *)
Definition tuple_map {S} (e : env) (t : tuple) (b : block1 S) (s : S) : res (S * tuple) :=
  do t' <- NEW_TUPLE e (t_len t);
  do x <- TUPLE_EACH (R := Empty_set) t (fun i v '(s, m) =>
     do (s', ret) <- b v s; do m' <- wr m i ret; Ok (inl (s', m'))) (s, t_mem t');
  match x with inl (s', m) => Ok (s', mkT (t_len t') (t_alloc t') m) | inr r => match r with end end.

(** table.c 472-481; [initial] nil means: start from the first element *)
Definition tuple_reduce {S} (t : tuple) (b : block2 S) (initial : Z) (s : S) : res (S * Z) :=
  do x <- TUPLE_EACH (R := Empty_set) t (fun i v '(s, acc) =>
     if (i =? 0) && (acc =? PN_NIL) then Ok (inl (s, v))
     else do (s', r) <- b acc v s; Ok (inl (s', r))) (s, initial);
  match x with inl p => Ok p | inr r => match r with end end.

(** table.c 489-503 *)
Definition tuple_filter {S} (e : env) (t : tuple) (with_index : bool) (b1 : block1 S) (b2 : block2 S) (s : S)
  : res (S * tuple) :=
  do out <- tuple_empty e;
  do x <- TUPLE_EACH (R := Empty_set) t (fun i v '(s, o) =>
     do (s', ret) <- (if with_index then b2 v (PN_NUM i) s else b1 v s);
     if PN_TEST ret then do o' <- tuple_push e o v; Ok (inl (s', o')) else Ok (inl (s', o))) (s, out);
  match x with inl p => Ok p | inr r => match r with end end.

(** table.c 508-512 *)
Definition tuple_first (t : tuple) : res Z :=
  if t_len t <? 1 then Ok PN_NIL else rd (t_mem t) 0.
(** table.c 531-536 *)
Definition tuple_last (t : tuple) : res Z :=
  if t_len t <? 1 then Ok PN_NIL else rd (t_mem t) (t_len t - 1).

(** table.c 560-568.  [t->len - 1] is computed in [unsigned]. *)
Definition tuple_pop (e : env) (t : tuple) : res (tuple * Z) :=
  do obj <- rd (t_mem t) (u32 (t_len t - 1));
  do m <- realloc_words e t (u32 (t_len t - 1));
  Ok (mkT (u32 (t_len t - 1)) (t_alloc t) m, obj).

(** table.c 576-589; the conversion to a table (other keys) is [inr] *)
Definition tuple_put (e : env) (t : tuple) (key v : Z) : res (tuple + unit) :=
  if PN_IS_INT key then
    let i := PN_INT key in let len := t_len t in
    let i := if i <? 0 then i + len else i in
    if i <? len then do m <- wr (t_mem t) i v; Ok (inl (mkT (t_len t) (t_alloc t) m))
    else if i =? len then do t' <- tuple_push e t v; Ok (inl t')
    else Ok (inr tt)
  else Ok (inr tt).

(** table.c 595-607 *)
Definition tuple_unshift (e : env) (t : tuple) (v : Z) : res tuple :=
  do t1 <- (if t_len t >=? t_alloc t
            then do m <- realloc_words e t (u32 (t_alloc t + 3));
                 Ok (mkT (t_len t) (u32 (t_alloc t + 3)) m)
            else Ok t);
  do m <- memmove e (t_mem t1) 1 0 (t_len t1);
  do m <- wr m 0 v;
  Ok (mkT (u32 (t_len t1 + 1)) (t_alloc t1) m).

(** table.c 613-622 *)
Definition tuple_shift (e : env) (t : tuple) : res (tuple * Z) :=
  do obj <- rd (t_mem t) 0;
  do m <- memmove e (t_mem t) 0 1 (t_len t);
  do m <- realloc_words e (mkT (t_len t) (t_alloc t) m) (u32 (t_len t - 1));
  Ok (mkT (u32 (t_len t - 1)) (t_alloc t) m, obj).

(** table.c 638-641 *)
Definition tuple_length (t : tuple) : Z := PN_NUM (t_len t).

(** table.c 646-655 *)
Definition tuple_reverse (e : env) (t : tuple) : res tuple :=
  let len := t_len t in
  do t' <- tuple_with_size e len;
  do x <- TUPLE_EACH (R := Empty_set) t (fun i v m =>
     do m' <- wr m (u64 (u64 (len - 1) - i)) v; Ok (inl m')) (t_mem t');
  match x with inl m => Ok (mkT (t_len t') (t_alloc t') m) | inr r => match r with end end.

(** table.c 658-661: SWAP, by three exclusive-ors *)
Definition SWAP (m : list Z) (a b : Z) : res (list Z) :=
  if a =? b then Ok m
  else do x <- rd m a; do y <- rd m b; do m <- wr m a (Z.lxor x y);
       do x <- rd m b; do y <- rd m a; do m <- wr m b (Z.lxor x y);
       do x <- rd m a; do y <- rd m b; wr m a (Z.lxor x y).

(** table.c 667-682; PN_SIZE i = PN_INT(index) truncates to 32 bits *)
Definition tuple_remove (e : env) (t : tuple) (index : Z) : res tuple :=
  if t_len t =? 0 then Ok t
  else
    let i := u32 (PN_INT index) in
    do c <- tuple_clone e t;
    do m <- (if i <? t_len c then memmove e (t_mem c) i (i + 1) (t_len c - i) else Ok (t_mem c));
    Ok (mkT (t_len c - 1) (t_alloc c) m).
(** table.c 688-699 *)
Definition tuple_delete (e : env) (t : tuple) (index : Z) : res tuple :=
  if t_len t =? 0 then Ok t
  else
    let i := u32 (PN_INT index) in
    do m <- (if i <? t_len t then memmove e (t_mem t) i (i + 1) (t_len t - i) else Ok (t_mem t));
    Ok (mkT (t_len t - 1) (t_alloc t) m).

(** table.c 704-716 *)
Fixpoint nreverse_loop (m : list Z) (len i : Z) (n : nat) : res (list Z) :=
  match n with
  | O => Ok m
  | S n' => do m' <- SWAP m (len - i - 1) i; nreverse_loop m' len (i + 1) n'
  end.
Definition tuple_nreverse (t : tuple) : res tuple :=
  do m <- nreverse_loop (t_mem t) (t_len t) 0 (Z.to_nat (t_len t / 2));
  Ok (mkT (t_len t) (t_alloc t) m).

(** table.c 722-738; [uniq] is PN_UNIQ of potion.h 247.  [t->len - 1] is
    computed in [unsigned] before it is stored in a [long]. *)
Fixpoint bsearch_loop (uniq : Z -> Z) (m : list Z) (xu i j : Z) (fuel : nat) : res Z :=
  match fuel with
  | O => NoFuel
  | S fuel' =>
    if i <=? j then
      let mid := j + Z.quot (i - j) 2 in
      do v <- rd m mid;
      let u := uniq v in
      if u =? xu then Ok (PN_NUM mid)
      else if u >? xu then bsearch_loop uniq m xu i (mid - 1) fuel'
      else bsearch_loop uniq m xu (mid + 1) j fuel'
    else Ok (PN_NUM (-1))
  end.
Definition tuple_bsearch (uniq : Z -> Z) (t : tuple) (x : Z) (fuel : nat) : res Z :=
  bsearch_loop uniq (t_mem t) (uniq x) 0 (u32 (t_len t - 1)) fuel.

(** gc.c 347-349, 396-...: a collection moves the tuple, copying as many words
    as the [alloc] field says; what lay behind them is gone. *)
Definition tuple_gc (t : tuple) : res tuple :=
  if zlen (t_mem t) <? t_alloc t then UB
  else Ok (mkT (t_len t) (t_alloc t) (ztake (t_alloc t) (t_mem t))).
