(** Model of the garbage collector: core/gc.h, core/gc.c and the inline allocation
    functions of core/potion.h 695-775.

    Memory is a map from object start addresses to objects; an object is its block
    (size in bytes) and its 8-byte words.  Simplifications, for the whole file:
    - the words of a hash table are listed as header, n_buckets|size,
      n_occupied|upper_bound, the flag words, then key and value of every bucket
      (khash.h interleaves them at 4-byte offsets; LayoutModel.v models that);
    - the number of fields of a user type (PN_VTABLE(vt)->ivlen) is a parameter that
      does not change during a collection, and the type-table slot that mark updates
      on the way (PN_VTABLE(..)) is only updated as part of the type table itself;
    - P->mem is not followed (it never lies in a collected region);
    - the keys of the table of interned strings, which the collector treats as weak,
      are a separate list of slots. *)
From Verif Require Import Base Arr WordModel LayoutModel.

Record obj := mkObj { o_size : Z; o_words : list Z }.
Definition heap := Z -> option obj.
Definition hset (h : heap) (a : Z) (o : obj) : heap := fun x => if x =? a then Some o else h x.

(** the two 32-bit halves of a word (little endian: the first field is the low one) *)
Definition lo32 (w : Z) : Z := w mod 4294967296.
Definition hi32 (w : Z) : Z := (w / 4294967296) mod 4294967296.
Definition word (o : obj) (i : Z) : Z := znth (o_words o) i.
(** potion.h 143 PN_VTYPE / struct PNFwd.fwd: the first 32 bits *)
Definition o_vt (o : obj) : Z := lo32 (word o 0).
Definition is_fwd (o : obj) : bool := o_vt o =? POTION_FWD.
Definition is_copied (o : obj) : bool := o_vt o =? POTION_COPIED.

(** gc.c 306-391 potion_type_size; [ivlen vt] is PN_VTABLE(vt)->ivlen, [ntypes] is
    PN_FLEX_SIZE(P->vts).  PN_TERROR, PN_TWEAK and the types without instances have no
    case in the switch.  The C computation is in int (see DESIGN.md). *)
Record cfg := mkC {
  c_from : Z -> bool;      (* addresses being evacuated *)
  c_region : Z -> bool;    (* addresses in any heap region *)
  c_ivlen : Z -> Z;
  c_ntypes : Z;
  c_junk : Z -> bool;      (* an address that starts no object: do its bytes look like a header *)
  c_depth : nat            (* fuel for potion_fwd *)
}.
Section Collector.
Variable c : cfg.

Definition kind_size (o : obj) : Z :=
  let vt := o_vt o in
  if vt =? PN_TNUMBER then 16
  else if vt =? PN_TSTRING then 12 + lo32 (word o 1) + 1
  else if vt =? PN_TCLOSURE then 48 + lo32 (word o 4) * 8
  else if vt =? PN_TTUPLE then 16 + 8 * hi32 (word o 1)
  else if vt =? PN_TSTATE then 600
  else if vt =? PN_TFILE then 32
  else if vt =? PN_TVTABLE then 96
  else if vt =? PN_TSOURCE then 56
  else if vt =? PN_TBYTES then 16 + hi32 (word o 1)
  else if vt =? PN_TPROTO then 136
  else if vt =? PN_TTABLE then
    24 + (if lo32 (word o 1) =? 0 then 0 else kh_size true (lo32 (word o 1)))
  else if vt =? PN_TLICK then 32
  else if vt =? PN_TSTRINGS then
    24 + (if lo32 (word o 1) =? 0 then 0 else kh_size false (lo32 (word o 1)))
  else if vt =? PN_TFLEX then 16 + hi32 (word o 1)
  else if vt =? PN_TCONT then 16 + lo32 (word o 1) * 8
  else if vt =? PN_TUSER then 12 + lo32 (word o 1)
  else 0.
Definition finish_size (sz : Z) : Z := PN_ALIGN (if sz <? 16 then 16 else sz) 8.
Definition type_size (o : obj) : Z :=
  if is_copied o || is_fwd o then finish_size (hi32 (word o 0))
  else if o_vt o <? PN_TNIL then 0
  else if o_vt o >? PN_TUSER then
    if o_vt o <? PN_TNIL + c_ntypes c then finish_size (8 + c_ivlen c (o_vt o) * 8) else 0
  else finish_size (kind_size o).

(** potion.h 570-574 potion_fwd *)
Fixpoint fwd (fuel : nat) (h : heap) (v : Z) : res Z :=
  match fuel with
  | O => NoFuel
  | S f => if PN_IS_PTR v then
             match h v with
             | None => UB
             | Some o => if is_fwd o then fwd f h (word o 1) else Ok v
             end
           else Ok v
  end.

(** what the collector changes *)
Record gst := mkG { g_heap : heap; g_cur : Z; g_keep : list Z }.

(** how many of the listed words a copy of sz bytes takes along; all of them for
    tables, whose words are listed in another order than they are stored *)
Definition kept (o : obj) (sz : Z) : Z :=
  if (o_vt o =? PN_TTABLE) || (o_vt o =? PN_TSTRINGS) then zlen (o_words o) else sz / 8.

(** gc.c 394-411 potion_gc_copy; reading past the end of the block is undefined *)
Definition gc_copy (s : gst) (a : Z) (o : obj) : res (gst * Z) :=
  let dst := g_cur s in
  let sz := type_size o in
  if sz =? 0 then Ok (mkG (hset (g_heap s) dst (mkObj 8 (ztake 1 (o_words o)))) dst (g_keep s), dst)
  else if (sz >? o_size o) || (kept o sz >? zlen (o_words o)) then UB
  else
    let copy := mkObj sz (ztake (kept o sz) (o_words o)) in
    do ws <- wr (o_words o) 0 (POTION_COPIED + sz * 4294967296);
    do ws <- wr ws 1 dst;
    Ok (mkG (hset (hset (g_heap s) dst copy) a (mkObj (o_size o) ws)) (dst + sz) (g_keep s), dst).

(** gc.h 61-67 GC_FORWARD *)
Definition forward (s : gst) (v : Z) : res (gst * Z) :=
  match g_heap s v with
  | None => UB
  | Some o => if is_copied o then Ok (s, word o 1) else gc_copy s v o
  end.
(** gc.h 69-84 GC_MINOR_UPDATE / GC_MAJOR_UPDATE on the value p of a slot; the two
    differ in the addresses they evacuate, [c_from] *)
Definition update (s : gst) (p : Z) : res (gst * Z) :=
  if PN_IS_PTR p then
    do v <- fwd (c_depth c) (g_heap s) p;
    if c_from c v then forward s v else Ok (s, p)
  else Ok (s, p).
(** gc.c 56 HAS_REAL_TYPE, of an object (P->vts is set after boot) *)
Definition real_type (o : obj) : bool :=
  is_copied o || ((PN_TNIL <=? o_vt o) && (o_vt o - PN_TNIL <? c_ntypes c)).
(** gc.c 59-95: one slot of pngc_mark_array (types 1 and 2): a conservative update.
    A word that lies in a region without being an object start makes the collector
    interpret the bytes there; if they look like a header the memory is corrupted. *)
Definition mark_word (s : gst) (p : Z) : res (gst * Z) :=
  if c_region c p then
    if PN_IS_PTR p && match g_heap s p with None => true | _ => false end
    then (if c_junk c p then UB else Ok (s, p))
    else
      do v <- fwd (c_depth c) (g_heap s) p;
      if c_from c v then
        match g_heap s v with
        | None => if c_junk c v then UB else Ok (s, p)
        | Some o => if real_type o then forward s v else Ok (s, p)
        end
      else Ok (s, p)
  else Ok (s, p).
Fixpoint mark_array (s : gst) (l : list Z) : res (gst * list Z) :=
  match l with
  | [] => Ok (s, [])
  | p :: l => do (s, p') <- mark_word s p; do (s, l') <- mark_array s l; Ok (s, p' :: l')
  end.

(** gc.h 86-98 / khash.h 225: bucket k is occupied *)
Definition nflags (nb : Z) : Z := Z.shiftr nb 4 + 1.
Definition occupied (o : obj) (k : Z) : bool := negb (w_iseither (word o (3 + Z.shiftr k 4)) k).
Definition table_slots (o : obj) : list Z :=
  let nb := lo32 (word o 1) in
  flat_map (fun k => if occupied o k then [3 + nflags nb + 2 * k; 3 + nflags nb + 2 * k + 1] else [])
           (zseq 0 (Z.to_nat nb)).
(** gc.c 413-517 / 519-623: the slots mark updates, in order *)
Definition traced (o : obj) : list Z :=
  let vt := o_vt o in
  if is_copied o || is_fwd o then [1]
  else if vt >? PN_TUSER then zseq 1 (Z.to_nat (c_ivlen c vt))
  else if vt =? PN_TWEAK then [1]
  else if vt =? PN_TCLOSURE then 2 :: zseq 6 (Z.to_nat (lo32 (word o 4)))
  else if vt =? PN_TTUPLE then zseq 2 (Z.to_nat (lo32 (word o 1)))
  else if vt =? PN_TSTATE then [60; 61; 62; 65; 66; 68; 69; 72; 74]
  else if vt =? PN_TFILE then [2]
  else if vt =? PN_TVTABLE then [2; 4; 5; 6; 7; 8; 9]
  else if vt =? PN_TSOURCE then [2; 3; 4; 6]
  else if vt =? PN_TPROTO then [1; 2; 3; 4; 5; 6; 7; 8; 9; 10; 13]
  else if vt =? PN_TTABLE then table_slots o
  else if vt =? PN_TLICK then [1; 2; 3]
  else if vt =? PN_TFLEX then zseq 2 (Z.to_nat (lo32 (word o 1)))
  else [].
(** gc.c 508-511: the slots of a saved stack, scanned conservatively *)
Definition saved_stack (o : obj) : list Z :=
  if o_vt o =? PN_TCONT then zseq 5 (Z.to_nat (lo32 (word o 1) - 3)) else [].

(** one slot of an object *)
Definition at_slot (f : gst -> Z -> res (gst * Z)) (s : gst) (a i : Z) : res gst :=
  match g_heap s a with
  | None => UB
  | Some o => do p <- rd (o_words o) i;
              do (s, p') <- f s p;
              match g_heap s a with
              | None => UB
              | Some o => do ws <- wr (o_words o) i p';
                          Ok (mkG (hset (g_heap s) a (mkObj (o_size o) ws)) (g_cur s) (g_keep s))
              end
  end.
Fixpoint at_slots (f : gst -> Z -> res (gst * Z)) (s : gst) (a : Z) (l : list Z) : res gst :=
  match l with [] => Ok s | i :: l => do s <- at_slot f s a i; at_slots f s a l end.
(** gc.c 413-623 potion_mark_minor / potion_mark_major: returns the address after the
    object *)
Definition mark (s : gst) (a : Z) : res (gst * Z) :=
  match g_heap s a with
  | None => UB
  | Some o =>
      do s <- at_slots update s a (traced o);
      let s := if o_vt o =? PN_TCONT then mkG (g_heap s) (g_cur s) (a :: g_keep s) else s in
      do s <- at_slots mark_word s a (saved_stack o);
      match g_heap s a with
      | None => UB
      | Some o => Ok (s, a + type_size o)
      end
  end.
(** gc.c 168-169, 239-240: the Cheney loop; also gc.c 234-237, over protected memory *)
Fixpoint scan (fuel : nat) (s : gst) (p : Z) (bound : gst -> Z) : res gst :=
  match fuel with
  | O => NoFuel
  | S f => if p <? bound s then do (s, p) <- mark s p; scan f s p bound else Ok s
  end.
(** gc.c 160-165: the store list, most recent entry first *)
Fixpoint mark_store (s : gst) (l : list Z) : res gst :=
  match l with
  | [] => Ok s
  | v :: l => if PN_IS_PTR v then do (s, _) <- mark s v; mark_store s l else mark_store s l
  end.
(** gc.h 116-145: one slot of the table of interned strings; None is a deleted slot *)
Definition weak_slot (s : gst) (k : option Z) : res (option Z) :=
  match k with
  | None => Ok None
  | Some v => if c_from c v then
                match g_heap s v with
                | None => UB
                | Some o => if is_copied o then Ok (Some (word o 1)) else Ok None
                end
              else Ok (Some v)
  end.
Fixpoint weak_slots (s : gst) (l : list (option Z)) : res (list (option Z)) :=
  match l with
  | [] => Ok []
  | k :: l => do k' <- weak_slot s k; do l' <- weak_slots s l; Ok (k' :: l')
  end.
(** the field P->strings of the interpreter state *)
Definition STRINGS_SLOT : Z := 60.

Record result := mkR {
  r_heap : heap;            (* after the evacuated regions are released *)
  r_cur : Z;                (* old_cur *)
  r_stack : list Z;
  r_strings : list (option Z);
  r_keep : list Z           (* the new store list *)
}.
Definition release (h : heap) : heap := fun a => if c_from c a then None else h a.

(** gc.c 143-185 potion_gc_minor, without the choice of the next nursery *)
Definition minor (fuel : nat) (P : Z) (h : heap) (cur : Z) (stack store : list Z)
    (strings : list (option Z)) : res result :=
  let s := mkG h cur [] in
  do (s, stack) <- mark_array s stack;
  do s <- at_slot update s P STRINGS_SLOT;
  do strings <- weak_slots s strings;
  do s <- mark_store s store;
  do s <- scan fuel s cur g_cur;
  Ok (mkR (release (g_heap s)) (g_cur s) stack strings (g_keep s)).
(** gc.c 187-264 potion_gc_major likewise: protected memory is walked from [prot_lo]
    (the interpreter state) to [prot_hi] unless the nursery is still the boot page *)
Definition major (fuel : nat) (P : Z) (h : heap) (cur : Z) (stack : list Z)
    (walk : bool) (prot_lo prot_hi : Z) (strings : list (option Z)) : res result :=
  let s := mkG h cur [] in
  do (s, stack) <- mark_array s stack;
  do s <- (if walk then scan fuel s prot_lo (fun _ => prot_hi) else Ok s);
  do s <- scan fuel s cur g_cur;
  do s <- at_slot update s P STRINGS_SLOT;
  do strings <- weak_slots s strings;
  Ok (mkR (release (g_heap s)) (g_cur s) stack strings (g_keep s)).
End Collector.
