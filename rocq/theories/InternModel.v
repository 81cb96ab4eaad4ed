(** Model of string interning: core/string.c 20-79 over the string set of
    core/table.h 47 (KHASH_MAP_INIT_STR: a set of string pointers, hashed by
    __luaS_hash_string of their characters and compared with strcmp).

    A key of the set is a string pointer; because both the hash and the
    comparison only look at the characters of the designated string (up to the
    first NUL), and the characters of a string object are never changed after
    its creation, the model stores with the pointer that C string content. *)
From Verif Require Import Base Arr GArr KhashModel.

Definition bytes := list Z.
(** the C string a buffer holds: everything before the first NUL *)
Fixpoint cstr (b : bytes) : bytes :=
  match b with [] => [] | c :: r => if c =? 0 then [] else c :: cstr r end.
Fixpoint bytes_eqb (a b : bytes) : bool :=
  match a, b with
  | [], [] => true
  | x :: a', y :: b' => (x =? y) && bytes_eqb a' b'
  | _, _ => false
  end.

(** khash.h 186-195 __luaS_hash_string; [s] is the string, l1 runs from len
    downwards in steps *)
Fixpoint luaS_loop (fuel : nat) (s : bytes) (h l1 step : Z) : Z :=
  match fuel with
  | O => h
  | S f => if l1 >=? step then
             let h := Z.lxor h (u32 (u32 (Z.shiftl h 5) + Z.shiftr h 2 + nth (Z.to_nat (l1 - 1)) s 0)) in
             luaS_loop f s h (l1 - step) step
           else h
  end.
Definition luaS_hash (s : bytes) : Z :=
  let len := zlen s in
  luaS_loop (S (length s)) s (u32 len) len (Z.shiftr len 5 + 1).

Definition skey := (bytes * Z)%type.   (* C string content, pointer *)
Definition str_hash (k : skey) : Z := u32 (luaS_hash (fst k)).
Definition str_equal (a b : skey) : bool := bytes_eqb (fst a) (fst b).

(** the interpreter state that matters: the set P->strings, the string objects
    (pointer -> characters, without the final NUL), the next fresh address *)
Record pstate := mkP { strs : khash skey unit; objs : Z -> option bytes; next : Z }.
Section Intern.
Variable junk : Z -> skey * unit.

(** string.c 20-24 *)
Definition add_str (P : pstate) (s : skey) : res pstate :=
  do (t, _, _) <- kh_put str_equal str_hash junk (strs P) s;
  Ok (mkP t (objs P) (next P)).
(** string.c 26-31; 0 is PN_NIL *)
Definition lookup_str (P : pstate) (str : bytes) : res Z :=
  do k <- kh_get str_equal str_hash (strs P) (str, 0);
  if negb (k =? n_buckets (strs P)) then do e <- grd (kv (strs P)) k; Ok (snd (fst e)) else Ok 0.
(** PN_ALLOC_N(PN_TSTRING, ...) and filling the characters *)
Definition new_str (P : pstate) (chars : bytes) : pstate * Z :=
  let p := next P in
  (mkP (strs P) (fun q => if q =? p then Some chars else objs P q) (p + 16 + zlen chars + 8), p).
(** string.c 33-45; [str] is a C string *)
Definition potion_str (P : pstate) (str : bytes) : res (pstate * Z) :=
  do val <- lookup_str P str;
  if val =? 0 then
    let (P, s) := new_str P str in
    do P <- add_str P (str, s); Ok (P, s)
  else Ok (P, val).
(** string.c 47-63; [str] is a buffer of len bytes *)
Definition potion_str2 (P : pstate) (str : bytes) : res (pstate * Z) :=
  let (P, s) := new_str P str in
  do found <- lookup_str P (cstr str);
  if found =? 0 then do P <- add_str P (cstr str, s); Ok (P, s)
  else Ok (P, found).
(** string.c 65-79; both arguments are C strings *)
Definition potion_strcat (P : pstate) (str str2 : bytes) : res (pstate * Z) :=
  let (P, s) := new_str P (str ++ str2) in
  do found <- lookup_str P (str ++ str2);
  if found =? 0 then do P <- add_str P (str ++ str2, s); Ok (P, s)
  else Ok (P, found).
(** string.c 81-96 potion_str_format: the formatted text becomes a new string
    object that is not entered into the set *)
Definition potion_str_format (P : pstate) (text : bytes) : pstate * Z := new_str P text.

(** What the collector has made of a string when it comes to the string set: not in the
    region that is collected (or protected), copied to a new address, or not copied *)
Inductive fate := Stay | Moved (q : Z) | Dead.
(** gc.h 116-129 GC_MINOR_STRINGS, 131-145 GC_MAJOR_STRINGS; the keys are pointers, and the
    copy has the same characters *)
Fixpoint sweep_from (f : Z -> fate) (cnt : nat) (k : Z) (t : khash skey unit) : res (khash skey unit) :=
  match cnt with
  | O => Ok t
  | S cnt =>
    do fk <- grd (fl t) k;
    do t <- (if negb (iseither fk) then
               do e <- grd (kv t) k;
               match f (snd (fst e)) with
               | Stay => Ok t
               | Moved q => do kv' <- gwr (kv t) k ((fst (fst e), q), snd e);
                            Ok (mkH (n_buckets t) (kh_sz t) (n_occupied t) (upper_bound t) (fl t) kv')
               | Dead => kh_del t k
               end
             else Ok t);
    sweep_from f cnt (k + 1) t
  end.
(** the state after a collection: [objs'] and [next'] are the heap it leaves *)
Definition sweep (f : Z -> fate) (objs' : Z -> option bytes) (next' : Z) (P : pstate) : res pstate :=
  do t <- sweep_from f (Z.to_nat (n_buckets (strs P))) 0 (strs P);
  Ok (mkP t objs' next').
End Intern.
