(** Model of the text of a syntax tree: core/ast.c 104-147 potion_source_string, with the
    byte buffer it fills (core/string.c 331-348, 361-410) and the reallocation of that
    buffer (core/potion.h 740-760).

    Not modelled: garbage collection while the text is built; lengths above 2^31 (the
    lengths here do not wrap around); how an operand that is neither nil, a string nor a
    syntax tree is turned into text (its text is given); the interning of the result
    (C26, C81), which keeps the characters when none of them is NUL. *)
From Coq Require Import Ascii String.
From Verif Require Import Base Arr WordModel BytesModel.
Definition txt (s : string) : list Z := map (fun c => Z.of_nat (nat_of_ascii c)) (list_ascii_of_string s).

(** potion.h 433-448 struct PNSource as seen from a[]: an operand is nil, a string, another
    object with its text, or a tree with its kind, its line and its operands *)
Inductive val := VNil | VStr (s : list Z) | VOther (s : list Z) | VSrc (part lineno : Z) (a : list val).

(** ast.c 13-19 *)
Definition potion_ast_names : list string :=
 ["code"; "value"; "assign"; "not"; "or"; "and"; "cmp"; "eq"; "neq";
  "gt"; "gte"; "lt"; "lte"; "pipe"; "caret"; "amp"; "wavy"; "bitl";
  "bitr"; "plus"; "minus"; "inc"; "times"; "div"; "rem"; "pow";
  "msg"; "path"; "query"; "pathq"; "expr"; "list"; "block"; "lick";
  "proto"; "debug"]%string.
(** ast.c 21-27 *)
Definition potion_ast_sizes : list Z :=
 [1; 3; 2; 1; 2; 2; 2; 2; 2;
  2; 2; 2; 2; 2; 2; 2; 1; 2;
  2; 2; 2; 2; 2; 2; 2; 2;
  3; 1; 1; 1; 1; 1; 1; 3;
  2; 3].
Definition ast_name (p : Z) : list Z := txt (nth (Z.to_nat p) potion_ast_names EmptyString).
Definition ast_size (p : Z) : Z := nth (Z.to_nat p) potion_ast_sizes 0.

(** The buffer [out]: the characters and the capacity of the live object, and whether the
    object [out] points to is now a forwarding stub (potion.h 753-755), with the lower 32 bits
    of the address in the stub: it never changes afterwards, later moves leave stubs further on. *)
Record buf := mkBuf { chars : list Z; siz : Z; stub : option Z }.
(** string.c 331-348 *)
Definition potion_byte_str (s : list Z) : buf := mkBuf s (BYTES_ALIGN (u64 (zlen s + 1))) None.
(** string.c 361-382 pn_printf (of a text without directives) and 392-410 potion_bytes_append:
    the buffer moves when the text does not fit.  [addr]: the lower 32 bits of the new address. *)
Definition put (addr : list Z -> Z) (b : buf) (s : list Z) : buf :=
  if zlen (chars b) + zlen s + 1 >? siz b
  then mkBuf (chars b ++ s) (BYTES_ALIGN (grown (zlen (chars b) + zlen s)))
         (match stub b with None => Some (addr (chars b)) | st => st end)
  else mkBuf (chars b ++ s) (siz b) (stub b).
(** potion.h 223 PN_STR_LEN(out) without potion_fwd: the word at offset 8, the length of a byte
    buffer but the lower half of [ptr] of a stub (potion.h 313-317); as the int [cut] *)
Definition PN_STR_LEN (b : buf) : Z := match stub b with None => zlen (chars b) | Some w => s32 w end.
(** ast.c 135-143: the characters are those up to the new length; [cut < b->len] is a
    comparison of unsigned int *)
Definition cut_at (b : buf) (cut : Z) : buf :=
  if cut >? 0 then
    if u32 cut <? zlen (chars b) then mkBuf (firstn (Z.to_nat (cut - 1)) (chars b)) (siz b) (stub b) else b
  else b.
(** string.c 384-386: the text sent for an operand *)
Definition is_nil (v : val) : bool := match v with VNil => true | _ => false end.
Definition quoted (v : val) : bool := match v with VStr _ => true | _ => false end.

(** ast.c 110-145, the loop over the [n] operands; [text]: the text sent for an operand *)
Definition loop (text : val -> list Z) (addr : list Z -> Z) (n : Z) :=
  fix loop (i : Z) (rest : list val) (out : buf) (cut lineno : Z) {struct rest} : buf :=
  match rest with
  | [] => out
  | x :: rest' =>
    let out := put addr out (txt " ") in
    let '(out, cut) :=
      if (i =? 0) && (n >? 1) then (put addr out (txt "("), cut)
      else if i >? 0 then
        (out, if is_nil x then (if cut =? 0 then PN_STR_LEN out else cut) else 0)
      else (out, cut) in
    let out := if quoted x then put addr (put addr (put addr out [34]) (text x)) [34]
               else put addr out (text x) in
    let '(out, lineno) := match x with
      | VSrc _ l' _ => if l' >? lineno then (put addr out [10], l') else (out, lineno)
      | _ => (out, lineno) end in
    let out := if (i =? n - 1) && (n >? 1) then put addr (cut_at out cut) (txt ")") else out in
    loop (i + 1) rest' out cut lineno
  end.
(** ast.c 104-147; [addr] gives the addresses for each tree *)
Fixpoint source_string (addr : val -> list Z -> Z) (v : val) : list Z :=
  match v with
  | VNil => txt "nil"
  | VStr s => s
  | VOther s => s
  | VSrc part l a =>
    chars (loop (source_string addr) (addr v) (ast_size part) 0 a (potion_byte_str (ast_name part)) 0 l)
  end.
