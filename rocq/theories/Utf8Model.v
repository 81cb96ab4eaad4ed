(** Model of the UTF-8 parts of core/string.c (lines 97-335), of
    core/contrib.c 17-49 and of the string escapes of core/syntax.y 281-327.

    A string object's memory from its first character on is a list of bytes
    [buf]: the characters, a NUL, and whatever follows up to the end of the
    allocated block; reading past the end of the list is [UB]. *)
From Verif Require Import Base Arr WordModel.

(** contrib.c 29/44: (b >> 7) & ((~b) >> 6), on int *)
Definition cont_bit (b : Z) : Z := Z.land (Z.shiftr b 7) (Z.shiftr (Z.lnot b) 6).
(** contrib.c 9 *)
Definition ONEMASK : Z := (two64 - 1) / 255.
(** contrib.c 26-30: bytes up to the first aligned address; [a] is the address
    of the string, [s] the offset; the boolean says that the NUL was met *)
Fixpoint sl_head (a : Z) (l : list Z) (s count : Z) : res (bool * list Z * Z * Z) :=
  if Z.land (a + s) 7 =? 0 then Ok (false, l, s, count) else
  match l with
  | [] => UB
  | b :: l' => if b =? 0 then Ok (true, l, s, count) else sl_head a l' (s + 1) (count + cont_bit b)
  end.
(** little-endian word *)
Definition word8 (b0 b1 b2 b3 b4 b5 b6 b7 : Z) : Z :=
  b0 + 256 * (b1 + 256 * (b2 + 256 * (b3 + 256 * (b4 + 256 * (b5 + 256 * (b6 + 256 * b7)))))).
(** contrib.c 35 *)
Definition has_zero (u : Z) : bool :=
  negb (Z.land (Z.land (u64 (u - ONEMASK)) (u64 (Z.lnot u))) (u64 (ONEMASK * 128)) =? 0).
(** contrib.c 38-39 *)
Definition word_conts (u : Z) : Z :=
  let u := Z.land (Z.shiftr (Z.land u (u64 (ONEMASK * 128))) 7) (Z.shiftr (u64 (Z.lnot u)) 6) in
  Z.shiftr (u64 (u * ONEMASK)) 56.
(** contrib.c 32-40 *)
Fixpoint sl_words (l : list Z) (s count : Z) : res (list Z * Z * Z) :=
  match l with
  | b0 :: b1 :: b2 :: b3 :: b4 :: b5 :: b6 :: b7 :: l' =>
    let u := word8 b0 b1 b2 b3 b4 b5 b6 b7 in
    if has_zero u then Ok (l, s, count) else sl_words l' (s + 8) (count + word_conts u)
  | _ => UB
  end.
(** contrib.c 42-47 *)
Fixpoint sl_tail (l : list Z) (s count : Z) : res (Z * Z) :=
  match l with
  | [] => UB
  | b :: l' => if b =? 0 then Ok (s, count) else sl_tail l' (s + 1) (count + cont_bit b)
  end.
(** contrib.c 17-49; count and s - _s are at most the length of the string, so
    the size_t arithmetic on them does not wrap *)
Definition cp_strlen_utf8 (a : Z) (buf : list Z) : res Z :=
  do (nul, l, s, count) <- sl_head a buf 0 0;
  if nul : bool then Ok (s - count) else
  do (l, s, count) <- sl_words l s count;
  do (s, count) <- sl_tail l s count;
  Ok (s - count).

(** string.c 97-99 *)
Definition str_length (a : Z) (buf : list Z) : res Z := do n <- cp_strlen_utf8 a buf; Ok (PN_NUM n).

(** (s[i] & 0xC0) != 0x80 *)
Definition starts_char (b : Z) : bool := negb (Z.land b 192 =? 128).
(** string.c 155-162 (int i: strings shorter than 2^31 bytes) *)
Fixpoint utf8char_offset (l : list Z) (index i : Z) : res Z :=
  match l with
  | [] => UB
  | b :: l' => if b =? 0 then Ok i
               else if starts_char b then
                 if index =? 0 then Ok i else utf8char_offset l' (u64 (index - 1)) (i + 1)
               else utf8char_offset l' index (i + 1)
  end.
(** string.c 165-171 *)
Fixpoint next_loop (l : list Z) (i : Z) : res Z :=
  match l with
  | [] => UB
  | b :: l' => if b =? 0 then Ok i else if starts_char b then Ok i else next_loop l' (i + 1)
  end.
Definition utf8char_nextchar (buf : list Z) (offset : Z) : res Z :=
  next_loop (skipn (Z.to_nat (offset + 1)) buf) (offset + 1).

(** string.c 188-206 *)
Definition utf8d : list Z :=
  repeat 56 16 ++ repeat 40 16 ++ repeat 24 32 ++
  [204; 204] ++ repeat 188 30 ++
  [174] ++ repeat 158 12 ++ [142; 126; 126] ++
  [111; 95; 95; 95; 79] ++ repeat 207 11.
(** string.c 209-220: (byte ^ (uint8_t)(data << 4)) *)
Definition strip (byte : Z) : Z :=
  if 128 <=? byte then Z.lxor byte (Z.shiftl (nth (Z.to_nat (byte - 128)) utf8d 0) 4 mod 256) else byte.
Fixpoint decode_loop (l : list Z) (unic : Z) : res Z :=
  match l with
  | [] => UB
  | b :: l' => if b =? 0 then Ok unic else decode_loop l' (Z.lor (u64 (Z.shiftl unic 6)) (strip b))
  end.
Definition utf8char_decode (buf : list Z) (off : Z) : res Z := decode_loop (skipn (Z.to_nat off) buf) 0.

(** string.c 223-239; the result is a PN *)
Definition str_slice_index (index len nilvalue : Z) : Z :=
  let i := s32 (PN_INT index) in
  PN_NUM (if PN_IS_NIL index then s32 nilvalue
          else if i <? 0 then let c := s32 (i + len) in if c <? 0 then 0 else c
          else if i >? len then s32 len else i).
(** the characters handed to potion_str2(P, str + off, len) *)
Definition substr (buf : list Z) (off len : Z) : res (list Z) :=
  if (0 <=? off) && (off + len <=? zlen buf) then Ok (zsub buf off len) else UB.
(** string.c 246-271; [start] and [end_] are PN words, 0 when absent; None is
    "return self" *)
Definition str_slice (a : Z) (buf : list Z) (start end_ : Z) : res (option (list Z)) :=
  do len <- cp_strlen_utf8 a buf;
  if start =? 0 then Ok None else
  do startoffset <- utf8char_offset buf (u64 (PN_INT (str_slice_index start len 0))) 0;
  let end_ := if end_ =? 0 then PN_NUM len else end_ in
  do endoffset <- (if end_ <? start
                   then utf8char_offset buf (u64 (PN_INT (str_slice_index (u64 (start + end_)) len len))) 0
                   else utf8char_offset buf (u64 (PN_INT (str_slice_index end_ len len))) 0);
  do s <- substr buf startoffset (u64 (endoffset - startoffset)); Ok (Some s).
(** string.c 298-312 *)
Definition str_at (a : Z) (buf : list Z) (index : Z) : res (list Z) :=
  let start := PN_INT index in
  do start <- (if start <? 0 then
                 do len <- cp_strlen_utf8 a buf; Ok (PN_INT (str_slice_index index len 0))
               else Ok start);
  do startoffset <- utf8char_offset buf (u64 start) 0;
  do endoffset <- utf8char_nextchar buf startoffset;
  substr buf startoffset (u64 (endoffset - startoffset)).
(** string.c 319-334; [blen] is PN_STR_LEN(self); str[i] is a (signed) char *)
Definition schar (b : Z) : Z := if b <? 128 then b else b - 256.
Definition str_ord (a : Z) (buf : list Z) (blen index : Z) : res Z :=
  let slow := do o <- utf8char_offset buf (u64 (PN_INT index)) 0;
              do c <- utf8char_decode buf o; Ok (PN_NUM c) in
  if blen >? 255 then slow else
  do len <- cp_strlen_utf8 a buf;
  if (len =? blen) && (PN_INT index <? len) then do b <- rd buf (PN_INT index); Ok (PN_NUM (schar b))
  else slow.

(** syntax.y 281-300: \uXXXX; None is YY_ERROR.  utfc is an array of char: only
    the low 8 bits of each assignment are kept *)
Definition escu (code : Z) : option (list Z) :=
  if code <? 128 then Some [code mod 256]
  else if code <? 2047 then
    if (code =? 192) || (code =? 193) then None
    else Some [Z.lor (Z.shiftr code 6) 192 mod 256; Z.lor (Z.land code 63) 128 mod 256]
  else
    if (code >=? 55296) && (code <? 57343) then None
    else Some [Z.lor (Z.shiftr code 12) 224 mod 256; Z.lor (Z.land (Z.shiftr code 6) 63) 128 mod 256;
               Z.lor (Z.land code 63) 128 mod 256].
(** syntax.y 301-327: \U{X...} *)
Definition escU (code : Z) : option (list Z) :=
  if code <? 128 then Some [code mod 256]
  else if code <? 2047 then
    if (code =? 192) || (code =? 193) then None
    else Some [Z.lor (Z.shiftr code 6) 192 mod 256; Z.lor (Z.land code 63) 128 mod 256]
  else if code <? 65535 then
    if (code >=? 55296) && (code <? 57343) then None
    else Some [Z.lor (Z.shiftr code 12) 224 mod 256; Z.lor (Z.land (Z.shiftr code 6) 63) 128 mod 256;
               Z.lor (Z.land code 63) 128 mod 256]
  else if code <? 1114111 then
    Some [Z.lor (Z.shiftr code 18) 240 mod 256; Z.lor (Z.land (Z.shiftr code 12) 63) 128 mod 256;
          Z.lor (Z.land (Z.shiftr code 6) 63) 128 mod 256; Z.lor (Z.land code 63) 128 mod 256]
  else None.
