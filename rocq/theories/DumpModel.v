(** Model of dumping compiled functions to bytecode and loading them:
    core/compile.c 1114-1267, core/internal.h 70-77, core/potion.h 42-43.

    A compiled function (struct PNProto) is a tree.  Constants are immediates (any
    word that is not a pointer), strings, doubles, the enclosing function (only used
    as [source]) or another heap object.  Fields that are not dumped (tree, debugs,
    jit) are left out.  Garbage collection during the dump is not modelled. *)
From Verif Require Import Base Arr WordModel NumModel DblModel BytesModel AsmModel.

Inductive cval :=
| CImm (w : Z)            (* an immediate *)
| CStr (s : list Z)       (* a string with these bytes *)
| CDbl (d : dbl)          (* a boxed double *)
| CUp                     (* the enclosing function *)
| CObj (p : Z).           (* any other object *)

Inductive proto := mkProto {
  pname : cval; psource : cval; psig : list cval; pstack : cval;
  pvalues : list cval; ppaths : list cval; plocals : list cval; pupvals : list cval;
  pprotos : list proto; pasm : list Z;
  plocalsize : Z; pupvalsize : Z; ppathsize : Z }.

(** ** writing: [out] holds the bytes written so far, [siz] the allocated size of
    the buffer; a write beyond it is out of bounds *)
Definition wput (siz : Z) (out : list Z) (bytes : list Z) : res (list Z) :=
  if zlen out + zlen bytes <=? siz then Ok (out ++ bytes) else UB.
(** compile.c 1193-1194 *)
Definition WRITE_U8 (siz : Z) (out : list Z) (n : Z) : res (list Z) := wput siz out [n mod 256].
Definition WRITE_PN (siz : Z) (out : list Z) (w : Z) : res (list Z) := wput siz out (le 8 w).
(** compile.c 1195-1211 *)
Definition WRITE_CONST (siz : Z) (out : list Z) (v : cval) : res (list Z) :=
  match v with
  | CStr s => do out <- WRITE_PN siz out (u32 (u32 (zlen s + 1) * 16)); wput siz out s
  | CDbl d => do s <- dbl_string d;
              do out <- WRITE_PN siz out (Z.lor (u32 (u32 (zlen s + 1) * 16)) 2); wput siz out s
  | CImm w => WRITE_PN siz out w
  | CUp | CObj _ => WRITE_PN siz out PN_NIL
  end.
Fixpoint wconsts (siz : Z) (out : list Z) (l : list cval) : res (list Z) :=
  match l with [] => Ok out | v :: l => do out <- WRITE_CONST siz out v; wconsts siz out l end.
(** compile.c 1212-1218 *)
Definition WRITE_VALUES (siz : Z) (out : list Z) (l : list cval) : res (list Z) :=
  do out <- WRITE_U8 siz out (zlen l); wconsts siz out l.
(** compile.c 1225-1248 (and WRITE_PROTOS 1219-1223) *)
Fixpoint proto_dumpbc (siz : Z) (out : list Z) (f : proto) : res (list Z) :=
  do out <- WRITE_CONST siz out (pname f);
  do out <- WRITE_CONST siz out (psource f);
  do out <- WRITE_VALUES siz out (psig f);
  do out <- WRITE_CONST siz out (pstack f);
  do out <- WRITE_VALUES siz out (pvalues f);
  do out <- WRITE_VALUES siz out (ppaths f);
  do out <- WRITE_VALUES siz out (plocals f);
  do out <- WRITE_VALUES siz out (pupvals f);
  do out <- WRITE_U8 siz out (zlen (pprotos f));
  do out <- (fix wprotos (out : list Z) (l : list proto) : res (list Z) :=
               match l with [] => Ok out | g :: l => do out <- proto_dumpbc siz out g; wprotos out l end)
            out (pprotos f);
  do out <- WRITE_PN siz out (zlen (pasm f));
  wput siz out (pasm f).
(** compile.c 1252-1266: header "p" 7 8 "n", major 0, minor 3 (config.mak 3-4), VM id
    0x79, word size 8; the buffer is potion_bytes(P, 8192) *)
Definition POTION_SIG : list Z := [112; 7; 8; 110].
Definition header : list Z := POTION_SIG ++ [0; 3; 121; 8].
Definition dump_siz : Z := BYTES_ALIGN (8192 + 1).
Definition source_dumpbc (f : proto) : res (list Z) :=
  do out <- wput dump_siz [] header; proto_dumpbc dump_siz out f.

(** ** reading: [mem] is the memory of the string (its bytes and the NUL), [p] the
    read position *)
Definition rbytes (mem : list Z) (p n : Z) : res (list Z) :=
  if (0 <=? p) && (0 <=? n) && (p + n <=? zlen mem) then Ok (zsub mem p n) else UB.
(** compile.c 1115-1116: a whole word is read, the position advances by [pn] *)
Definition READ_U8 (mem : list Z) (p : Z) : res (Z * Z) := do b <- rd mem p; Ok (b, p + 1).
Definition READ_PN (pn : Z) (mem : list Z) (p : Z) : res (Z * Z) :=
  do l <- rbytes mem p 8; Ok (unle l, p + pn).
(** compile.c 1117-1130; size_t arithmetic *)
Definition READ_CONST (pn : Z) (mem : list Z) (p : Z) : res (cval * Z) :=
  do (val, p) <- READ_PN pn mem p;
  if PN_IS_PTR val then
    if negb (Z.land val 2 =? 0) then
      let len := Z.shiftr (Z.lxor val 2) 4 - 1 in
      if len <? 0 then UB else Ok (CDbl (strtod (zdrop p mem) len), p + len)
    else
      let len := Z.shiftr val 4 - 1 in
      if len <? 0 then UB else do s <- rbytes mem p len; Ok (CStr s, p + len)
  else Ok (CImm val, p).
Fixpoint rconsts (n : nat) (pn : Z) (mem : list Z) (p : Z) : res (list cval * Z) :=
  match n with
  | O => Ok ([], p)
  | S n => do (v, p) <- READ_CONST pn mem p; do (l, p) <- rconsts n pn mem p; Ok (v :: l, p)
  end.
(** compile.c 1132-1139 *)
Definition READ_VALUES (pn : Z) (mem : list Z) (p : Z) : res (list cval * Z) :=
  do (n, p) <- READ_U8 mem p; rconsts (Z.to_nat n) pn mem p.
(** compile.c 1140-1143, 1146-1177.  Nested functions are read one level deeper; the
    depth is bounded by [fuel]. *)
Fixpoint rprotos (load : Z -> res (proto * Z)) (n : nat) (p : Z) : res (list proto * Z) :=
  match n with
  | O => Ok ([], p)
  | S n => do (g, p) <- load p; do (l, p) <- rprotos load n p; Ok (g :: l, p)
  end.
Fixpoint proto_load (fuel : nat) (up : cval) (pn : Z) (mem : list Z) (p : Z) : res (proto * Z) :=
  match fuel with
  | O => NoFuel
  | S fuel =>
    do (name, p) <- READ_CONST pn mem p;
    do (source, p) <- READ_CONST pn mem p;
    let source := match source with CImm w => if w =? PN_NIL then up else source | _ => source end in
    do (sig, p) <- READ_VALUES pn mem p;
    do (stack, p) <- READ_CONST pn mem p;
    do (values, p) <- READ_VALUES pn mem p;
    do (paths, p) <- READ_VALUES pn mem p;
    do (locals, p) <- READ_VALUES pn mem p;
    do (upvals, p) <- READ_VALUES pn mem p;
    do (n, p) <- READ_U8 mem p;
    do (protos, p) <- rprotos (proto_load fuel CUp pn mem) (Z.to_nat n) p;
    do (len, p) <- READ_PN pn mem p;
    do code <- rbytes mem p len;
    Ok (mkProto name source sig stack values paths locals upvals protos code
          (zlen locals) (zlen upvals) (zlen paths), p + len)
  end.
(** compile.c 1181-1190; [None] is nil: not bytecode *)
Definition source_load (fuel : nat) (buf : list Z) : res (option proto) :=
  if (zlen buf <=? 8) || negb (if list_eq_dec Z.eq_dec (ztake 4 buf) POTION_SIG then true else false)
  then Ok None
  else do (f, _) <- proto_load fuel (CImm PN_NIL) (znth buf 7) (buf ++ [0]) 8; Ok (Some f).
