(** Model of allocation (core/potion.h 699-760, core/gc.h 28-36, 147-155,
    core/gc.c 121-131), and of the sizes every constructor of an object asks for. *)
From Verif Require Import Base Arr WordModel LayoutModel GcModel.

(** potion.h 703-705: the block of a request of siz bytes.  siz is a C int that is
    compared with a size_t, so a negative one is not raised to the minimum;
    PN_ALIGN (potion.h 232) divides with truncation *)
Definition blocksize (siz : Z) : Z :=
  let siz := if (0 <=? siz) && (siz <? 16) then 16 else siz in (Z.quot (siz - 1) 8 + 1) * 8.

(** ** The nursery *)
(** struct PNMemory birth_lo, birth_hi, birth_cur, birth_storeptr; the store list grows
    downwards from the end: its newest entry is at n_sptr + 8 *)
Record nursery := mkN { n_lo : Z; n_hi : Z; n_cur : Z; n_sptr : Z }.
(** potion.h 712: is a collection needed first *)
Definition must_collect (M : nursery) (dirty : bool) (siz : Z) : bool :=
  dirty || (n_cur M + blocksize siz >=? n_sptr M - 2).
(** potion.h 714-718: take the block at birth_cur *)
Definition bump (M : nursery) (siz : Z) : nursery * Z :=
  (mkN (n_lo M) (n_hi M) (n_cur M + blocksize siz) (n_sptr M), n_cur M).
(** potion.h 728-738 potion_gc_update on an address that is recorded: (the nursery
    after the entry is written, whether a collection follows); the entry occupies the
    8 bytes from the old n_sptr *)
Definition push_store (M : nursery) : nursery * bool :=
  let M' := mkN (n_lo M) (n_hi M) (n_cur M) (n_sptr M - 8) in
  (M', n_sptr M' - 32 <=? n_cur M').

Definition POTION_PAGESIZE : Z := 4096.
Definition POTION_MIN_BIRTH_SIZE : Z := 262144.
Definition POTION_BIRTH_SIZE : Z := 16777216.
Definition POTION_MAX_BIRTH_SIZE : Z := 268435456.
(** gc.h 147-155 *)
Definition birth_suggest (need oldlen : Z) : Z :=
  let suggest := Z.quot oldlen 2 in
  let suggest := if need * 2 >? suggest then need * 2 else suggest in
  let suggest := if POTION_MIN_BIRTH_SIZE >? suggest then POTION_MIN_BIRTH_SIZE
                 else if POTION_BIRTH_SIZE <? suggest then POTION_BIRTH_SIZE else suggest in
  PN_ALIGN suggest POTION_MIN_BIRTH_SIZE.
(** gc.c 121-131 NEW_BIRTH_REGION with gc.h 28-36: a fresh region of sz bytes (rounded
    up to pages) at newad; [keeps] entries of the store list are carried over *)
Definition new_region (newad sz keeps : Z) : nursery :=
  let hi := newad + PN_ALIGN sz POTION_PAGESIZE in
  mkN newad hi (newad + 16) (hi - 8 * (5 + keeps)).
(** gc.c 148-185 potion_gc_minor and 201-262 potion_gc_major, as far as the next nursery
    is concerned; a request of POTION_MAX_BIRTH_SIZE or more is refused and the nursery
    stays as it is (the refusal is ignored, gc.c 294-297) *)
Definition minor_nursery (M : nursery) (sz oldlen newad keeps : Z) : nursery :=
  let sz := if sz <? 0 then 0 else sz in
  if sz >=? POTION_MAX_BIRTH_SIZE then M
  else let sz := sz + 2 * POTION_PAGESIZE in new_region newad (Z.max sz (birth_suggest sz oldlen)) keeps.
Definition major_nursery (M : nursery) (sz oldlen newad keeps : Z) : nursery :=
  let sz := if sz <? 0 then 0 else sz in
  if sz >=? POTION_MAX_BIRTH_SIZE then M
  else new_region newad (sz + birth_suggest sz oldlen) keeps.
(** potion.h 700-720 potion_gc_alloc: [full] is the choice of collection *)
Definition gc_alloc (M : nursery) (dirty full : bool) (siz oldlen newad keeps : Z) : nursery * Z :=
  let M := if must_collect M dirty siz
           then (if full then major_nursery else minor_nursery) M (blocksize siz + 32) oldlen newad keeps
           else M in
  bump M siz.

(** ** gc.c 276-293: the choice between a minor and a major collection once there is an
    old region: [room] = old_hi - old_cur, [birthlen] = birth_hi - birth_lo *)
Definition need_full (sz oldlen room birthlen : Z) : bool := sz + birth_suggest sz oldlen + birthlen >? room.

(** ** Reallocation: potion.h 740-760, for an object obj and a new block at dst.  The
    new block is filled with the first oldsz bytes of obj, obj becomes a stub. *)
Definition gc_realloc (c : cfg) (h : heap) (a dst sz : Z) (junk : list Z) : res (heap * Z) :=
  match h a with
  | None => UB
  | Some o =>
      let oldsz := type_size c o in
      if oldsz >=? sz then Ok (h, a)
      else if kept o oldsz >? zlen (o_words o) then UB
      else
        let n := mkObj (blocksize sz) (ztake (kept o oldsz) (o_words o) ++ junk) in
        do ws <- wr (o_words o) 0 (POTION_FWD + oldsz * 4294967296);
        do ws <- wr ws 1 dst;
        Ok (hset (hset h dst n) a (mkObj (o_size o) ws), dst)
  end.

(** ** The constructors: the bytes they request, the bytes they use, and the words they
    write (fields that do not matter for the size are parameters).  [hd vt u] is the
    header: type and random id *)
Definition hd (vt u : Z) : Z := vt + u * 4294967296.
Definition pair32 (lo hi : Z) : Z := lo + hi * 4294967296.
Inductive born : Z -> Z -> list Z -> Prop :=   (* request, bytes used, leading words *)
| b_double u d : born 16 16 [hd PN_TNUMBER u; d]                                             (* number.c 17-20 *)
| b_string u len x : 0 <= len -> born (12 + (len + 1)) (12 + len + 1) [hd PN_TSTRING u; pair32 len x]   (* string.c 37, 50, 68, 89, 424 *)
| b_closure u m s a e n : 0 <= e -> born (48 + e * 8) (48 + 8 * e) [hd PN_TCLOSURE u; m; s; a; pair32 e 0; n] (* objmodel.c 17-40 *)
| b_tuple u n : 0 <= n -> born (16 + n * 8) (16 + 8 * n) [hd PN_TTUPLE u; pair32 n n]         (* table.c 16-18 *)
| b_file u d p m : born 32 32 [hd PN_TFILE u; d; p; m]                                        (* file.c 40, 72 *)
| b_vtable u w1 w2 : born (96 + 0) 96 [hd PN_TVTABLE u; w1; w2]                               (* objmodel.c 194, 208 *)
| b_source u w1 w2 : born 56 56 [hd PN_TSOURCE u; w1; w2]                                     (* ast.c 38 *)
| b_bytes u len siz : 0 <= len <= siz -> born (16 + siz) (16 + siz) [hd PN_TBYTES u; pair32 len siz] (* string.c 342-348, 353-358; asm.c 16 *)
| b_proto u w1 w2 : born 136 136 [hd PN_TPROTO u; w1; w2]                                     (* compile.c 671, 1055, 1084, 1149 *)
| b_table u s w2 : born 24 24 [hd PN_TTABLE u; pair32 0 s; w2]                                (* table.c 43, 50, 170, 203 *)
| b_table_grown u n s w2 : 0 < n <= 67108864 -> born (24 + kh_size true n) (24 + kh_size true n) [hd PN_TTABLE u; pair32 n s; w2]  (* khash.h 86 *)
| b_lick u n a i : born 32 32 [hd PN_TLICK u; n; a; i]                                        (* lick.c 12 *)
| b_strings u s w2 : born (24 + 0) 24 [hd PN_TSTRINGS u; pair32 0 s; w2]                      (* string.c 488 *)
| b_strings_grown u n s w2 : 0 < n <= 67108864 -> born (24 + kh_size false n) (24 + kh_size false n) [hd PN_TSTRINGS u; pair32 n s; w2] (* khash.h 86 *)
| b_flex u len siz : 0 <= len <= siz -> born (16 + siz) (16 + siz) [hd PN_TFLEX u; pair32 len siz]   (* internal.h 35-38 *)
| b_data u siz x : 0 <= siz -> born (12 + siz) (12 + siz) [hd PN_TUSER u; pair32 siz x]       (* potion.h 765-769 *)
| b_weak u d : born 16 16 [hd PN_TWEAK u; d].                                                 (* objmodel.c 483 *)
(** the constructors whose size the collector does not know *)
(** internal.c 236-242 potion_error *)
Definition error_words (u msg line chr excerpt parent : Z) : list Z := [hd PN_TERROR u; parent; msg; line; chr; excerpt].
Definition error_request : Z := 48.
(** callcc.c 127-131: n words of stack, three pointers and five registers *)
Definition cont_request (n : Z) : Z := 16 + 8 * (n + 3 + 5).
Definition cont_head (u n : Z) : list Z := [hd PN_TCONT u; pair32 (n + 3) 0].
(** callcc.c 158: the last word of the copied stack is stack[4 + 5 + (n - 1) - 1] *)
Definition cont_used (n : Z) : Z := 16 + 8 * (4 + 5 + (n - 1)).
(** internal.c 25-29 potion_allocate: the field siz is set to the tagged word *)
Definition allocate_request (len : Z) : Z := 12 + PN_INT len.
Definition allocate_head (u len : Z) : list Z := [hd PN_TUSER u; pair32 (u32 len) 0].
(** objmodel.c 530-538 potion_object_new: potion_type_size of the class, minus the
    header, plus the fields *)
Definition object_request (ivlen : Z) : Z := 8 + (96 - 8 + ivlen * 8).

(** ** The write barrier: potion.h 728-738 potion_gc_update(x) on the store list, newest
    entry first; [young] is the test on the nursery (potion.h 730).  The words above the
    first entry are zero and match no object. *)
Definition gc_update (young : Z -> bool) (store : list Z) (x : Z) : list Z :=
  if young x || existsb (Z.eqb x) (firstn 3 store) then store else x :: store.
(** table.c 566-588 potion_tuple_put of an integer index inside the tuple: the store goes
    to the tuple that self leads to (PN_TUPLE_AT, potion_fwd), the announcement names
    self as it was passed; potion_tuple_push (table.c 311-321) without growth and
    potion_tuple_unshift do the same *)
Definition tuple_put_barrier (c : cfg) (h : heap) (store : list Z) (self i value : Z) : res (heap * list Z) :=
  do t <- fwd (c_depth c) h self;
  match h t with
  | None => UB
  | Some o => do ws <- wr (o_words o) (2 + i) value;
              Ok (hset h t (mkObj (o_size o) ws), gc_update (c_from c) store self)
  end.
