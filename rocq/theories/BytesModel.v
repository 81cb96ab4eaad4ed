(** Model of byte buffers: core/string.c 16-18, 336-410 and 456-468, with the
    reallocation of core/potion.h 740-760 (forwarding stubs included, garbage
    collection excluded).

    The heap maps addresses to objects; addresses are handed out upwards.  Newly
    allocated or grown memory holds arbitrary bytes ([junk]). *)
From Verif Require Import Base Arr WordModel.

Inductive bobj :=
| OStr (c : list Z)                         (* struct PNString: len = zlen c *)
| OBytes (len siz : Z) (mem : list Z)       (* struct PNBytes: chars[0..siz) *)
| OFwd (p : Z).                             (* struct PNFwd *)
Record bheap := mkBH { obj : Z -> option bobj; bnext : Z }.
Definition set_obj (h : bheap) (a : Z) (o : bobj) : bheap :=
  mkBH (fun q => if q =? a then Some o else obj h q) (bnext h).
Definition alloc (h : bheap) (o : bobj) (bytes : Z) : bheap * Z :=
  let a := bnext h in (mkBH (fun q => if q =? a then Some o else obj h q) (a + PN_ALIGN bytes 8), a).

(** potion.h 570-574; a stub points to an object allocated after it, so the
    number of steps is bounded by the allocated range *)
Fixpoint bfwd_loop (fuel : nat) (h : bheap) (a : Z) : res Z :=
  match fuel with
  | O => NoFuel
  | S f => match obj h a with None => UB | Some (OFwd p) => bfwd_loop f h p | Some _ => Ok a end
  end.
Definition bfwd (h : bheap) (a : Z) : res Z := bfwd_loop (S (Z.to_nat (bnext h))) h a.

(** string.c 18 with sizeof(struct PNBytes) = 16; size_t arithmetic *)
Definition BYTES_ALIGN (n : Z) : Z := u64 (PN_ALIGN (u64 (n + 16)) 32 - 16).
(** string.c 16, 398: ((n) * 1 / 8 * 9) + 1 in unsigned int *)
Definition grown (n : Z) : Z := u32 (u32 (n / 8 * 9) + 1).

(** string.c 342-348 *)
Definition potion_bytes (junk : Z -> list Z) (h : bheap) (len : Z) : bheap * Z :=
  let siz := BYTES_ALIGN (u64 (len + 1)) in
  alloc h (OBytes (u32 len) (u32 siz) (junk siz)) (16 + siz).
(** writing [src] at [off] of a buffer's memory *)
Fixpoint blit (mem : list Z) (off : Z) (src : list Z) : res (list Z) :=
  match src with
  | [] => Ok mem
  | b :: src' => do mem <- wr mem off b; blit mem (off + 1) src'
  end.
(** string.c 335-340 *)
Definition byte_str2 (junk : Z -> list Z) (h : bheap) (str : list Z) : res (bheap * Z) :=
  let (h, a) := potion_bytes junk h (zlen str) in
  match obj h a with
  | Some (OBytes len siz mem) =>
    do mem <- blit mem 0 str; do mem <- wr mem (zlen str) 0;
    Ok (set_obj h a (OBytes len siz mem), a)
  | _ => UB
  end.
(** string.c 353-359: only the two sizes are copied *)
Definition bytes_clone (junk : Z -> list Z) (h : bheap) (self : Z) : res (bheap * Z) :=
  do b <- bfwd h self;
  match obj h b with
  | Some (OBytes len siz _) => Ok (alloc h (OBytes len siz (junk siz)) (16 + siz))
  | _ => UB
  end.
(** potion.h 740-760 for PN_TBYTES, sz = 16 + siz; on return the object at the
    new address has the old contents followed by junk, the old one is a stub *)
Definition bytes_realloc (junk : Z -> list Z) (h : bheap) (a siz : Z) : res (bheap * Z) :=
  match obj h a with
  | Some (OBytes len old mem) =>
    if PN_ALIGN (16 + old) 8 >=? 16 + siz then Ok (h, a) else
    let (h, b) := alloc h (OBytes len old (mem ++ junk (siz - old))) (16 + siz) in
    Ok (set_obj h a (OFwd b), b)
  | _ => UB
  end.
(** string.c 397-401 (and 370-374) *)
Definition bytes_room (junk : Z -> list Z) (h : bheap) (s len : Z) : res (bheap * Z) :=
  match obj h s with
  | Some (OBytes slen siz _) =>
    if u32 (slen + len + 1) >? siz then
      let siz' := BYTES_ALIGN (grown (u32 (slen + len))) in
      do (h, s) <- bytes_realloc junk h s siz';
      match obj h s with
      | Some (OBytes slen _ mem) => Ok (set_obj h s (OBytes slen (u32 siz') mem), s)
      | _ => UB
      end
    else Ok (h, s)
  | _ => UB
  end.
(** PN_STR_LEN / PN_STR_PTR of a string or buffer (the pointer is forwarded
    again, potion.h 577-582) *)
Definition str_len (h : bheap) (a : Z) : res Z :=
  match obj h a with Some (OStr c) => Ok (zlen c) | Some (OBytes len _ _) => Ok len | _ => UB end.
Definition str_chars (h : bheap) (a len : Z) : res (list Z) :=
  do a <- bfwd h a;
  match obj h a with
  | Some (OStr c) => if len <=? zlen c then Ok (ztake len c) else UB
  | Some (OBytes _ _ mem) => if len <=? zlen mem then Ok (ztake len mem) else UB
  | _ => UB
  end.
(** string.c 391-408 *)
Definition bytes_append (junk : Z -> list Z) (h : bheap) (self str : Z) : res bheap :=
  do s <- bfwd h self;
  do fstr <- bfwd h str;
  do len <- str_len h fstr;
  do (h, s) <- bytes_room junk h s len;
  do src <- str_chars h fstr len;
  match obj h s with
  | Some (OBytes slen siz mem) =>
    do mem <- blit mem slen src;
    let slen := u32 (slen + len) in
    do mem <- wr mem slen 0;
    Ok (set_obj h s (OBytes slen siz mem))
  | _ => UB
  end.
(** string.c 361-383; [text] is the formatted text *)
Definition bytes_printf (junk : Z -> list Z) (h : bheap) (bytes : Z) (text : list Z) : res bheap :=
  do s <- bfwd h bytes;
  let len := u32 (zlen text) in
  do (h, s) <- bytes_room junk h s len;
  match obj h s with
  | Some (OBytes slen siz mem) =>
    do mem <- blit mem slen (text ++ [0]);
    Ok (set_obj h s (OBytes (u32 (slen + len)) siz mem))
  | _ => UB
  end.
(** string.c 413-416 *)
Definition bytes_length (h : bheap) (self : Z) : res Z :=
  do s <- bfwd h self; do n <- str_len h s; Ok (PN_NUM n).
(** string.c 460-468; None is nil, Some c the one-byte buffer returned *)
Definition bytes_at (h : bheap) (self index : Z) : res (option Z) :=
  do s <- bfwd h self;
  let index := PN_INT index in
  do len <- str_len h s;
  if (u64 index >=? len) || (index <? 0) then Ok None
  else match obj h s with
       | Some (OBytes _ _ mem) => do c <- rd mem index; Ok (Some c)
       | Some (OStr c) => do c <- rd c index; Ok (Some c)
       | _ => UB
       end.
