(** Model of the table type, core/table.c 39-283, over KhashModel instantiated
    as in core/table.h 46 (KHASH_MAP_INIT_PN): keys and values are words, keys
    compare by word equality and hash by PN_UNIQ.

    A table is passed and returned by value: the forwarding pointer of a
    reallocated table and the write barrier are modelled in GcModel.v. *)
From Verif Require Import Base Arr GArr WordModel TupleModel KhashModel.

Definition table := khash Z Z.

Section Table.
(** the [uniq] field of the object a pointer designates (potion.h 240-243) *)
Variable obj_uniq : Z -> Z.
(** potion.h:247 PN_UNIQ; khash.h:207 kh_pn_hash_func casts it to uint32_t *)
Definition PN_UNIQ (x : Z) : Z := if PN_IS_PTR x then u32 (obj_uniq x) else PN_NUMHASH x.
Definition pn_hash (key : Z) : Z := u32 (PN_UNIQ key).

(** the memory environment of one operation: the junk found in a grown table
    and in a fresh tuple *)
Variable junk : Z -> Z * Z.

(** table.c 42-44 *)
Definition table_empty : table := kh_empty.
(** table.c 70-76 *)
Definition table_at (t : table) (key : Z) : res Z :=
  do k <- kh_get Z.eqb pn_hash t key;
  if negb (k =? n_buckets t) then do e <- grd (kv t) k; Ok (snd e) else Ok PN_NIL.
(** table.c 124-133 *)
Definition table_put (t : table) (key value : Z) : res table :=
  do (t, k, _) <- kh_put Z.eqb pn_hash junk t key;
  kh_set_val t k value.
(** table.c 139-146 *)
Definition table_remove (t : table) (key : Z) : res table :=
  do k <- kh_get Z.eqb pn_hash t key;
  if negb (k =? n_buckets t) then kh_del t k else Ok t.
(** table.c 160-164 *)
Definition table_length (t : table) : Z := PN_NUM (kh_sz t).
(** table.c 82-91; the block is always called with key and value *)
Definition table_each {S} (t : table) (b : block2 S) (s : S) : res S :=
  kh_each t (fun _ e s => do (s, _) <- b (fst e) (snd e) s; Ok s) s.
(** table.c 99-117 *)
Definition table_map {S} (e : env) (t : table) (with_val : bool) (b1 : block1 S) (b2 : block2 S) (s : S)
  : res (S * tuple) :=
  do t2 <- NEW_TUPLE e (kh_sz t);
  do (s, i, m) <-
    kh_each t (fun _ en '(s, i, m) =>
        do (s, r) <- (if with_val then b2 (fst en) (snd en) s else b1 (fst en) s);
        do m <- wr m i r; Ok (s, i + 1, m)) (s, 0, t_mem t2);
  Ok (s, mkT (t_len t2) (t_alloc t2) m).
(** table.c 226-237 *)
Definition table_keys (e : env) (t : table) : res tuple :=
  do t2 <- NEW_TUPLE e (kh_sz t);
  do (i, m) <- kh_each t (fun _ en '(i, m) => do m <- wr m i (fst en); Ok (i + 1, m)) (0, t_mem t2);
  Ok (mkT (t_len t2) (t_alloc t2) m).
(** table.c 245-256 *)
Definition table_values (e : env) (t : table) : res tuple :=
  do t2 <- NEW_TUPLE e (kh_sz t);
  do (i, m) <- kh_each t (fun _ en '(i, m) => do m <- wr m i (snd en); Ok (i + 1, m)) (0, t_mem t2);
  Ok (mkT (t_len t2) (t_alloc t2) m).
(** table.c 167-182 *)
Definition table_clone (t : table) : res table :=
  do t2 <- kh_resize pn_hash junk table_empty;
  kh_each t (fun _ en t2 =>
     do (t2, key, _) <- kh_put Z.eqb pn_hash junk t2 (fst en);
     kh_set_val t2 key (snd en)) t2.
(** table.c 195-218, with a list of keys *)
Definition table_slice (t : table) (keys : tuple) : res table :=
  do t2 <- kh_resize pn_hash junk table_empty;
  do r <- TUPLE_EACH (R := Empty_set) keys (fun _ v t2 =>
      do k <- kh_get Z.eqb pn_hash t v;
      if negb (k =? n_buckets t) then
        do (t2, k2, _) <- kh_put Z.eqb pn_hash junk t2 v;
        do e <- grd (kv t) k;
        do t2 <- kh_set_val t2 k2 (snd e);
        Ok (inl t2)
      else Ok (inl t2)) t2;
  match r with inl t2 => Ok t2 | inr x => match x with end end.
(** table.c 264-283: deletes from the clone the bucket number of the original *)
Definition table_filter {S} (t : table) (with_val : bool) (b1 : block1 S) (b2 : block2 S) (s : S) : res (S * table) :=
  do t2 <- table_clone t;
  kh_each t (fun k en '(s, t2) =>
      do (s, r) <- (if with_val then b2 (fst en) (snd en) s else b1 (fst en) s);
      if negb (PN_TEST r) then do t2 <- kh_del t2 k; Ok (s, t2) else Ok (s, t2)) (s, t2).
(** table.c 47-64, for a tuple *)
Definition table_cast (tu : tuple) : res table :=
  do r <- TUPLE_EACH (R := Empty_set) tu (fun i v t =>
      do (t, k, _) <- kh_put Z.eqb pn_hash junk t (PN_NUM i);
      do t <- kh_set_val t k v; Ok (inl t)) table_empty;
  match r with inl t => Ok t | inr x => match x with end end.
(** table.c 152-155 on a tuple / on a table *)
Definition table_set (o : tuple + table) (key value : Z) : res table :=
  do t <- (match o with inl tu => table_cast tu | inr t => Ok t end);
  table_put t key value.
End Table.
