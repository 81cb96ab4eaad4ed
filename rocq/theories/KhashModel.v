(** Model of the hash table core/khash.h (macros instantiated by
    core/table.h 46-47 for value tables and for the string set).

    The model is polymorphic in the key type and the value type, with the key
    equality and the hash function of the instance as parameters.  The flat
    byte storage of khash.h 45-51 is represented by one flag pair per bucket
    ([fl]) and one key/value pair per bucket ([kv]); LayoutModel.v models the
    byte offsets and the packed flag bits and shows that this is faithful.
    The forwarding pointer followed after a reallocation (PN_QUICK_FWD) is not
    represented here: the table is returned by value. *)
From Verif Require Import Base Arr GArr.

(** (isempty, isdel): the two flag bits of a bucket, khash.h 26-35 *)
Definition flag := (bool * bool)%type.
Definition isempty (f : flag) : bool := fst f.
Definition isdel (f : flag) : bool := snd f.
Definition iseither (f : flag) : bool := isempty f || isdel f.

(** potion.h:88 PN_SIZE is a 32-bit unsigned; khash.h:43 PN_TABLE_HEADER *)
Record khash (K V : Type) := mkH {
  n_buckets : Z; kh_sz : Z; n_occupied : Z; upper_bound : Z;
  fl : list flag; kv : list (K * V) }.
Arguments mkH {K V}.
Arguments n_buckets {K V}. Arguments kh_sz {K V}. Arguments n_occupied {K V}.
Arguments upper_bound {K V}. Arguments fl {K V}. Arguments kv {K V}.

(** khash.h 41,84,125: (khint_t)(n * 0.77 + 0.5).  The double computation is
    exact enough for every n <= 2^26 to equal this rational floor (n is a power
    of two, so n * 0.77 has the relative error of the constant 0.77 only). *)
Definition hash_upper (n : Z) : Z := (154 * n + 100) / 200.

Section Khash.
Context {K V : Type} (keqb : K -> K -> bool) (hash : K -> Z).
(** what the uninitialised part of a grown storage contains at bucket i *)
Variable junk : Z -> K * V.
Notation table := (khash K V).

(** the zeroed header of a fresh table, table.c 42-44 (PN_ALLOC does not clear
    memory; a fresh birth region is zero-filled by mmap) *)
Definition kh_empty : table := mkH 0 0 0 0 [] [].

(** khash.h 68-71: the search loop of kh_get *)
Fixpoint get_loop (fuel : nat) (h : table) (key : K) (i inc last mask : Z) : res Z :=
  match fuel with
  | O => NoFuel
  | S f =>
    do fi <- grd (fl h) i;
    if isempty fi then Ok i
    else
      do kvi <- grd (kv h) i;
      if isdel fi || negb (keqb (fst kvi) key) then
        let i' := Z.land (u32 (i + inc)) mask in
        if i' =? last then Ok (n_buckets h)
        else get_loop f h key i' inc last mask
      else Ok i
  end.
(** khash.h 61-74 kh_get: the bucket of a key, n_buckets when absent *)
Definition kh_get (h : table) (key : K) : res Z :=
  if negb (n_buckets h =? 0) then
    let mask := n_buckets h - 1 in
    let k := hash key in
    let i := Z.land k mask in
    let inc := Z.land (Z.lor k 1) mask in
    do i' <- get_loop (S (length (fl h))) h key i inc i mask;
    if i' =? n_buckets h then Ok i'    (* returned from inside the loop *)
    else do f <- grd (fl h) i'; Ok (if iseither f then n_buckets h else i')
  else Ok 0.

(** khash.h 101: while (!__ac_isempty(new_flags, i)) i = (i + inc) & new_mask; *)
Fixpoint probe_new (fuel : nat) (nf : list bool) (i inc mask : Z) : res Z :=
  match fuel with
  | O => NoFuel
  | S f => do e <- grd nf i;
           if negb e then probe_new f nf (Z.land (u32 (i + inc)) mask) inc mask else Ok i
  end.
(** khash.h 96-114: place the carried entry; if its bucket holds an entry not
    yet moved, exchange them and go on with that one.  [olds]: the old flags,
    [nf]: the isempty bits of new_flags, [st]: the (already grown) storage *)
Fixpoint kick (fuel : nat) (n new_n : Z) (olds : list flag) (nf : list bool) (st : list (K * V)) (c : K * V)
  : res (list flag * list bool * list (K * V)) :=
  match fuel with
  | O => NoFuel
  | S f =>
    let mask := new_n - 1 in
    let k := hash (fst c) in
    let i := Z.land k mask in
    let inc := Z.land (Z.lor k 1) mask in
    do i <- probe_new (S (length nf)) nf i inc mask;
    do nf <- gwr nf i false;
    if i <? n then
      do fi <- grd olds i;
      if negb (iseither fi) then
        do tmp <- grd st i;
        do st <- gwr st i c;
        do olds <- gwr olds i (fst fi, true);
        kick f n new_n olds nf st tmp
      else do st <- gwr st i c; Ok (olds, nf, st)
    else do st <- gwr st i c; Ok (olds, nf, st)
  end.
(** khash.h 91-117: for (j = 0; j != n_buckets; ++j) *)
Fixpoint rehash (cnt : nat) (j n new_n : Z) (olds : list flag) (nf : list bool) (st : list (K * V))
  : res (list flag * list bool * list (K * V)) :=
  match cnt with
  | O => Ok (olds, nf, st)
  | S cnt' =>
    do fj <- grd olds j;
    do (olds, nf, st) <-
      (if negb (iseither fj) then
         do c <- grd st j;
         do olds <- gwr olds j (fst fj, true);
         kick (S (length olds)) n new_n olds nf st c
       else Ok (olds, nf, st));
    rehash cnt' (j + 1) n new_n olds nf st
  end.
(** khash.h 75-128 kh_resize.  The requested size is overwritten (line 81), so
    the table only ever doubles.  Storage sizes are 32-bit (line 46): beyond
    2^26 buckets the model declares the behaviour undefined.  The copy of the
    flag words (lines 120-122) reads one word past new_flags when the new size
    is at least 16 (LayoutModel.flag_copy_reads); the value read is stored in
    the unused trailing flag word, so it is not represented here. *)
Definition kh_resize (h : table) : res table :=
  let n := n_buckets h in
  let new_n := if negb (n =? 0) then u32 (n * 2) else 4 in
  if kh_sz h >=? hash_upper new_n then Ok h
  else if new_n >? 67108864 then UB
  else
    let st := kv h ++ map junk (zseq (zlen (kv h)) (Z.to_nat (new_n - zlen (kv h)))) in
    let nf := repeat true (Z.to_nat new_n) in
    do (olds, nf, st) <- rehash (Z.to_nat n) 0 n new_n (fl h) nf st;
    Ok (mkH new_n (kh_sz h) (kh_sz h) (hash_upper new_n) (map (fun e => (e, false)) nf) st).

(** khash.h 142-146: the search loop of kh_put; returns the final i, the last
    deleted bucket seen (n_buckets if none) and whether the probe wrapped *)
Fixpoint put_loop (fuel : nat) (h : table) (key : K) (i site inc last mask : Z) : res (Z * Z * bool) :=
  match fuel with
  | O => NoFuel
  | S f =>
    do fi <- grd (fl h) i;
    if isempty fi then Ok (i, site, false)
    else
      do kvi <- grd (kv h) i;
      if isdel fi || negb (keqb (fst kvi) key) then
        let site := if isdel fi then i else site in
        let i' := Z.land (u32 (i + inc)) mask in
        if i' =? last then Ok (i', site, true)
        else put_loop f h key i' site inc last mask
      else Ok (i, site, false)
  end.
(** khash.h 129-165 kh_put: make room, find the bucket x, claim it.  Returns
    the table, the bucket and the code stored in *ret.  The value is stored by
    the caller; a claimed bucket keeps whatever value was there. *)
Definition kh_put (h : table) (key : K) : res (table * Z * Z) :=
  do h <- (if n_occupied h >=? upper_bound h then kh_resize h else Ok h);
  let n := n_buckets h in
  let mask := n - 1 in
  let k := hash key in
  let i := Z.land k mask in
  do f0 <- grd (fl h) i;
  do x <- (if isempty f0 then Ok i
           else
             let inc := Z.land (Z.lor k 1) mask in
             do (i, site, wrapped) <- put_loop (S (length (fl h))) h key i n inc i mask;
             let x := if wrapped then site else n in
             if x =? n then
               do fi <- grd (fl h) i;
               Ok (if isempty fi && negb (site =? n) then site else i)
             else Ok x);
  do fx <- grd (fl h) x;
  do kvx <- grd (kv h) x;
  if isempty fx then
    do fl' <- gwr (fl h) x (false, false);
    do kv' <- gwr (kv h) x (key, snd kvx);
    Ok (mkH n (u32 (kh_sz h + 1)) (u32 (n_occupied h + 1)) (upper_bound h) fl' kv', x, 1)
  else if isdel fx then
    do fl' <- gwr (fl h) x (false, false);
    do kv' <- gwr (kv h) x (key, snd kvx);
    Ok (mkH n (u32 (kh_sz h + 1)) (n_occupied h) (upper_bound h) fl' kv', x, 2)
  else Ok (h, x, 0).

(** khash.h 51,157 kh_val(t, x) = v *)
Definition kh_set_val (h : table) (x : Z) (v : V) : res table :=
  do kvx <- grd (kv h) x;
  do kv' <- gwr (kv h) x (fst kvx, v);
  Ok (mkH (n_buckets h) (kh_sz h) (n_occupied h) (upper_bound h) (fl h) kv').

(** khash.h 166-172 kh_del.  A flag word holds the flags of 16 buckets; in a table of
    fewer buckets the other flags of the word keep their initial value, "empty" (memset
    0xaa in kh_resize).  Behind that there is no initialised flag. *)
Definition kh_del (h : table) (x : Z) : res table :=
  if (n_buckets h <? x) && (x <? 16) then Ok h
  else if negb (x =? n_buckets h) then
    do fx <- grd (fl h) x;
    if negb (iseither fx) then
      do fl' <- gwr (fl h) x (isempty fx, true);
      Ok (mkH (n_buckets h) (u32 (kh_sz h - 1)) (n_occupied h) (upper_bound h) fl' (kv h))
    else Ok h
  else Ok h.

(** the loop  for (k = kh_begin(t); k != kh_end(t); ++k) if (kh_exist(t, k)) BODY
    used by every enumeration (table.c 28, 86, 105, 173, 231, 250, 271) *)
Fixpoint kh_each_from {S} (cnt : nat) (h : table) (k : Z) (body : Z -> K * V -> S -> res S) (s : S) : res S :=
  match cnt with
  | O => Ok s
  | Datatypes.S cnt' =>
    do f <- grd (fl h) k;
    do s <- (if negb (iseither f) then do e <- grd (kv h) k; body k e s else Ok s);
    kh_each_from cnt' h (k + 1) body s
  end.
Definition kh_each {S} (h : table) (body : Z -> K * V -> S -> res S) (s : S) : res S :=
  kh_each_from (Z.to_nat (n_buckets h)) h 0 body s.
End Khash.
