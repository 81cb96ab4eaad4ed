(** Model of function signatures: the arity functions of core/objmodel.c 76-187,
    the named-argument search of core/syntax.y 468-491, the argument-count check
    of core/vm.c 440-456, the filling-in of missing arguments of core/vm.c
    816-828 and 842-855, and the building of a signature from the source of a
    parameter list, core/compile.c 911-1038.

    A signature is a tuple of words: names (strings), and integers or other
    values.  It is represented by the list of its words; [is_str] tells which
    words are strings (PN_IS_STR, potion.h 174). *)
From Verif Require Import Base Arr WordModel.

Section Sig.
Variable is_str : Z -> bool.

(** PN_NUM(':') and PN_NUM('|') *)
Definition COLON : Z := PN_NUM 58.
Definition BAR : Z := PN_NUM 124.

(** the two statements that appear in three of the loops (objmodel.c 92-94,
    143-144, 176-177): a string counts, a ':' followed by a string discounts.
    t->set[i+1] past the end of the tuple is not a word of the signature: UB *)
Definition sig_count (t : list Z) (i v count : Z) : res Z :=
  let count := if is_str v then count + 1 else count in
  if PN_IS_INT v && (v =? COLON)
  then do w <- rd t (i + 1); Ok (if is_str w then count - 1 else count)
  else Ok count.

(** objmodel.c 82-104 potion_sig_arity, for a tuple *)
Fixpoint arity_loop (t : list Z) (i : Z) (n : nat) (count : Z) : res Z :=
  match n with
  | O => Ok count
  | S n => do v <- rd t i; do count <- sig_count t i v count; arity_loop t (i + 1) n count
  end.
Definition sig_arity (t : list Z) : res Z := arity_loop t 0 (length t) 0.

(** objmodel.c 107-129 potion_sig_minargs, for a tuple *)
Fixpoint minargs_loop (t : list Z) (i : Z) (n : nat) (count : Z) : res Z :=
  match n with
  | O => Ok count
  | S n => do v <- rd t i;
           let count := if is_str v then count + 1 else count in
           if PN_IS_INT v && (v =? BAR) then Ok count
           else if PN_IS_INT v && (v =? COLON) then Ok (count - 1)
           else minargs_loop t (i + 1) n count
  end.
Definition sig_minargs (t : list Z) : res Z := minargs_loop t 0 (length t) 0.

(** objmodel.c 132-162 potion_sig_at: the words of one parameter; [] is nil *)
Fixpoint at_loop (t : list Z) (i : Z) (n : nat) (count index : Z) : res (list Z) :=
  match n with
  | O => Ok []
  | S n => do v <- rd t i;
           do count <- sig_count t i v count;
           if count =? index then
             if i + 1 <? zlen t then
               do typ <- rd t (i + 1);
               if PN_IS_INT typ then
                 if (i + 2 <? zlen t) && (typ =? COLON) then do d <- rd t (i + 2); Ok [v; typ; d]
                 else Ok [v; typ]
               else Ok [v]
             else Ok [v]
           else at_loop t (i + 1) n count index
  end.
Definition sig_at (t : list Z) (index : Z) : res (list Z) := at_loop t 0 (length t) (-1) index.

(** objmodel.c 165-187 potion_sig_name_at; 0 is "none" *)
Fixpoint name_loop (t : list Z) (i : Z) (n : nat) (count index : Z) : res Z :=
  match n with
  | O => Ok 0
  | S n => do v <- rd t i;
           do count <- sig_count t i v count;
           if count =? index then Ok v else name_loop t (i + 1) n count index
  end.
Definition sig_name_at (t : list Z) (index : Z) : res Z := name_loop t 0 (length t) (-1) index.

(** syntax.y 468-491 potion_sig_find: [prev] is declared inside the loop, so the
    test on it is always true *)
Fixpoint find_loop (t : list Z) (name idx : Z) : Z :=
  match t with
  | [] => -1
  | v :: t => if v =? name then idx else find_loop t name (if is_str v then idx + 1 else idx)
  end.
Definition sig_find (t : list Z) (name : Z) : Z := find_loop t name 0.

(** vm.c 440-456 potion_sig_check: is the call refused? *)
Definition sig_check (minargs arity numargs : Z) : bool :=
  if numargs >? 0 then
    if numargs <? minargs then true else numargs >? arity
  else false.

(** potion.h 805-810 potion_type_default; the argument is a char; [STR0] is the
    empty string *)
Definition type_default (STR0 c : Z) : Z :=
  let c := c mod 256 in
  if c =? 78 then PN_ZERO else if c =? 73 then PN_ZERO else if c =? 83 then STR0 else PN_NIL.
(** vm.c 821-827 = 846-851: the value put in the register of argument i.  [None]:
    the register keeps what it held.  A parameter without type has a one-element
    tuple: its second word is uninitialised memory, UB *)
Definition fill_one (STR0 : Z) (t : list Z) (i : Z) : res (option Z) :=
  do s <- sig_at t i;
  match s with
  | [] => Ok None
  | _ => if zlen s =? 3 then do d <- rd s 2; Ok (Some d)
         else do ty <- rd s 1; Ok (Some (type_default STR0 (PN_INT ty)))
  end.
Fixpoint fill_loop (STR0 : Z) (t : list Z) (i : Z) (n : nat) (args : list Z) (junk : Z) : res (list Z) :=
  match n with
  | O => Ok args
  | S n => do v <- fill_one STR0 t i;
           fill_loop STR0 t (i + 1) n (args ++ [match v with Some v => v | None => junk end]) junk
  end.
(** vm.c 813-828 / 842-855: the arguments the callee sees; None: an error object
    is returned instead of calling *)
Definition call_args (STR0 : Z) (t : list Z) (args : list Z) : res (option (list Z)) :=
  do arity <- sig_arity t;
  do minargs <- sig_minargs t;
  if sig_check minargs arity (zlen args) then Ok None
  else do l <- fill_loop STR0 t (zlen args) (Z.to_nat (arity - zlen args)) args 0; Ok (Some l).

(** ** Parameter lists of functions written in the language *)
(** the shapes of parameter ASTs that the parser produces and potion_sig_compile
    accepts (compile.c 949-1036); a name is a string word; a type is the first
    character of a word *)
Inductive past :=
| PMsg (x : Z)                       (* x              expr (msg x) *)
| PPipe (x y : Z)                    (* x|y            pipe (x) (y) *)
| PType (x t : Z)                    (* x=t            assign (expr x) (expr t) *)
| PDef (x v : Z)                     (* x:=v           assign (expr x) (value v) *)
| PPipeType (x y : Z) (y0 : Z) (t : Z)  (* x|y=t      assign (pipe (x) (y)) (t); y0: first character of y *)
| PTypePipeType (x t y u : Z).       (* x=t|y=u        assign x (assign (pipe t y) u) *)
(** the words pushed for one parameter AST.  For x|y=t (compile.c 991-997) the
    right-hand side is replaced by y, whose first character is then pushed as a
    type *)
Definition sig_compile1 (p : past) : list Z :=
  match p with
  | PMsg x => [x]
  | PPipe x y => [x; BAR; y]
  | PType x t => [x; PN_NUM t]
  | PDef x v => [x; COLON; v]
  | PPipeType x y y0 t => [x; BAR; PN_NUM y0]
  | PTypePipeType x t y u => [x; PN_NUM t; BAR; y; PN_NUM u]
  end.
Definition sig_compile (l : list past) : list Z := concat (map sig_compile1 l).
End Sig.
