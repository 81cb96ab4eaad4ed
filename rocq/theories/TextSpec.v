(** Specification of the concrete syntax, independent of the grammar file: the
    texts of a program of the language of SrcSpec, as a set of character lists.

    [str] is the string table: [str l] is the word for the interned string of the
    characters [l] (only used to relate a name or a string literal to its word). *)
From Verif Require Import Base WordModel NumModel CompileModel SrcSpec.

Definition lang := list Z -> Prop.

(** ** Characters *)
Definition between (a b c : Z) : bool := (a <=? c) && (c <=? b).
Definition letter (c : Z) : bool :=          (* A-Z a-z _ $ @ *)
  between 65 90 c || between 97 122 c || (c =? 95) || (c =? 36) || (c =? 64).
Definition digit (c : Z) : bool := between 48 57 c.
Definition name_char (c : Z) : bool :=       (* letters, digits, ; ` { } *)
  letter c || digit c || (c =? 59) || (c =? 96) || (c =? 123) || (c =? 125).
Definition blank (c : Z) : bool := (c =? 32) || (c =? 9) || (c =? 11) || (c =? 12).
Definition printing (c : Z) : bool := (c =? 9) || between 32 126 c.

(** ** White space *)
(** on a line *)
Definition spaces (g : list Z) : Prop := forallb blank g = true.
(** over several lines: blanks, line ends, comments with their line end *)
Inductive lines : list Z -> Prop :=
| lines_nil : lines []
| lines_blank c g : blank c = true -> lines g -> lines (c :: g)
| lines_lf g : lines g -> lines (10 :: g)
| lines_crlf g : lines g -> lines (13 :: 10 :: g)
| lines_comment t g : forallb printing t = true -> lines g -> lines (35 :: t ++ 10 :: g).
(** between statements: a comma or a line end, then any of these and white space *)
Inductive seps : list Z -> Prop :=
| seps_nil : seps []
| seps_blank c g : blank c = true -> seps g -> seps (c :: g)
| seps_lf g : seps g -> seps (10 :: g)
| seps_crlf g : seps g -> seps (13 :: 10 :: g)
| seps_comma g : seps g -> seps (44 :: g)
| seps_comment t g : forallb printing t = true -> seps g -> seps (35 :: t ++ 10 :: g).
Definition separator (s : list Z) : Prop :=
  exists g, seps g /\ (s = 44 :: g \/ s = 10 :: g \/ s = 13 :: 10 :: g).

(** ** Concatenation: words must not run into each other, nor a final full stop
    into a digit *)
Definition word_char (c : Z) : bool := name_char c || (c =? 63) || (128 <=? c).
Definition joins (a b : list Z) : bool :=
  match rev a, b with
  | x :: _, y :: _ =>
      negb (word_char x && word_char y) && negb ((x =? 46) && digit y)
  | _, _ => true
  end.
Definition cat (A B : lang) : lang := fun s => exists a b, s = a ++ b /\ A a /\ B b /\ joins a b = true.
Infix "^^" := cat (at level 45, right associativity).
(** a fixed word, then white space *)
Definition tok (w : list Z) : lang := fun s => exists g, spaces g /\ s = w ++ g.
Definition tokn (w : list Z) : lang := fun s => exists g, lines g /\ s = w ++ g.
(** an operator: white space after it is required *)
Definition oper (w : list Z) : lang := fun s => exists g, lines g /\ g <> [] /\ s = w ++ g.
Definition empty : lang := fun s => s = [].
Definition maybe (A : lang) : lang := fun s => s = [] \/ A s.

(** ** Words *)
Definition reserved : list (list Z) :=   (* and or not nil true false *)
  [[97; 110; 100]; [111; 114]; [110; 111; 116]; [110; 105; 108]; [116; 114; 117; 101]; [102; 97; 108; 115; 101]].
Definition t_extern : list Z := [101; 120; 116; 101; 114; 110].
Fixpoint prefix (p l : list Z) : bool :=
  match p, l with [] , _ => true | x :: p, y :: l => (x =? y) && prefix p l | _, [] => false end.
Fixpoint list_eqb (a b : list Z) : bool :=
  match a, b with [], [] => true | x :: a, y :: b => (x =? y) && list_eqb a b | _, _ => false end.
(** a letter, then letters and digits (and ; ` { }); not a reserved word, and not
    beginning with "extern"; it may end in a question mark *)
Definition ident (w : list Z) : bool :=
  match w with [] => false | c :: w => letter c && forallb name_char w end
  && negb (existsb (list_eqb w) reserved) && negb (prefix t_extern w).
Definition ident_q (w : list Z) : Prop := ident w = true \/ exists u, ident u = true /\ w = u ++ [63].
(** after a slash *)
Definition path_ident (w : list Z) : bool :=
  match w with [] => false | c :: w => letter c && forallb name_char w end.
(** a quoted string: quotes inside are doubled *)
Definition quotable (c : Z) : bool := printing c || (c =? 10).
Fixpoint escaped (l : list Z) : list Z :=
  match l with [] => [] | c :: l => (if c =? 39 then [39; 39] else [c]) ++ escaped l end.
Definition quoted (l : list Z) : list Z := 39 :: escaped l ++ [39].

Section Text.
  Context (str : list Z -> Z).
  Definition name (x : Z) : lang := fun s => exists w, ident_q w /\ str w = x /\ tok w s.
  Definition path (x : Z) : lang := fun s => exists w, path_ident w = true /\ str w = x /\ tok (47 :: w) s.
  Definition literal (v : Z) : lang := fun s => exists w, tok w s /\
    ((v = PN_NIL /\ w = [110; 105; 108]) \/ (v = PN_TRUE /\ w = [116; 114; 117; 101])
     \/ (v = PN_FALSE /\ w = [102; 97; 108; 115; 101])
     \/ (exists n, 0 <= n < two62 /\ v = PN_NUM n /\ w = sprintf_ld n)
     \/ (exists l, forallb quotable l = true /\ v = str l /\ w = quoted l)).
  Definition t_if : list Z := [105; 102].
  Definition t_elsif : list Z := [101; 108; 115; 105; 102].
  Definition t_else : list Z := [101; 108; 115; 101].
  Definition t_while : list Z := [119; 104; 105; 108; 101].
  Definition t_loop : list Z := [108; 111; 111; 112].
  Definition t_return : list Z := [114; 101; 116; 117; 114; 110].
  Definition t_break : list Z := [98; 114; 101; 97; 107].
  Definition t_continue : list Z := [99; 111; 110; 116; 105; 110; 117; 101].
  Definition t_self : list Z := [115; 101; 108; 102].

  (** ** Operators, by decreasing precedence; all associate to the left *)
  Definition op_text (p : part) : list Z :=
    match p with
    | POW => [42; 42]
    | TIMES => [42] | DIV => [47] | REM => [37]
    | PLUS => [43] | MINUS => [45]
    | BITL => [60; 60] | BITR => [62; 62]
    | GTE => [62; 61] | GT => [62] | LTE => [60; 61] | LT => [60]
    | EQ => [61; 61] | NEQ => [33; 61]
    | _ => []
    end.
  Definition op_level (p : part) : Z :=
    match p with
    | POW => 1 | TIMES | DIV | REM => 2 | PLUS | MINUS => 3 | BITL | BITR => 4
    | GTE | GT | LTE | LT => 5 | EQ | NEQ => 6
    | _ => 9
    end.
  (** 0: not an operator application; 7: assignment (associates to the right);
      8: and, or (associate to the left) *)
  Definition level (e : exp) : Z :=
    match e with
    | EBin p _ _ => op_level p
    | ESet _ _ | EUpSet _ _ | EGlob _ _ | EPathSet _ _ => 7
    | EAnd _ _ | EOr _ _ => 8
    | _ => 0
    end.
  (** may messages be sent to it by juxtaposition? *)
  Definition receiver (e : exp) : Prop :=
    match e with ENot _ | EBitn _ => False | _ => level e = 0 end.
  (** does the text end in a name that would take a following list as its arguments? *)
  Definition open_end (e : exp) : bool :=
    match e with
    | EVar _ | EUp _ | ESelf | ESelfSend0 _ | ESend0 _ _ | EBreak | ECont | EPath _ | EPathOf _ _ => true
    | EInc _ _ post => negb post
    | _ => false
    end.
  Definition only (P : Prop) (A : lang) : lang := fun s => P /\ A s.

  (** a name with nothing after it *)
  Definition bare_name (x : Z) : lang := fun s => ident_q s /\ str s = x.
  (** an index: an integer, a variable, or a quoted string *)
  Definition index (k : akey) : lang :=
    match k with
    | AInt i => only (0 <= i < two62) (tok (sprintf_ld i))
    | AVar y => name y
    | AKey v => fun s => exists l, forallb quotable l = true /\ v = str l /\ tok (quoted l) s
    end.
  Definition paren (A : lang) : lang := tokn [40] ^^ A ^^ tok [41].
  Definition brack (A : lang) : lang := tokn [91] ^^ A ^^ tok [93].
  (** one after the other, in either order *)
  Definition either_order (A B : lang) : lang := fun s => (A ^^ B) s \/ (B ^^ A) s.
  Definition blk (A : lang) : lang := tokn [58] ^^ A ^^ tok [46].
  Fixpoint params (ps : list Z) : lang :=
    match ps with
    | [] => empty
    | p :: ps => name p ^^ match ps with [] => maybe separator | _ => separator ^^ params ps end
    end.

  Fixpoint text (e : exp) : lang :=
    match e with
    | ELit v => literal v
    | EVar x | EUp x | ESelfSend0 x => name x
    | ESelf => tok t_self
    | EBin p a b =>
        only (src_op p = true /\ level a <= op_level p /\ level b < op_level p)
          (text a ^^ oper (op_text p) ^^ text b)
    | ENot a => only (level a = 0) (oper [110; 111; 116] ^^ text a)
    | EBitn a => only (level a = 0) (tokn [126] ^^ text a)
    | EAnd a b => only (level b < 8) (text a ^^ oper [97; 110; 100] ^^ text b)
    | EOr a b => only (level b < 8) (text a ^^ oper [111; 114] ^^ text b)
    | ESet x e | EUpSet x e | EGlob x e => only (level e < 8) (name x ^^ tokn [61] ^^ text e)
    | EInc x up post =>
        let s := if up then [43; 43] else [45; 45] in
        if post then name x ^^ tok s else (fun t => t = s) ^^ name x
    | EPath n => path n
    | EPathOf e n => only (receiver e) (text e ^^ path n)
    | EPathSet n e => only (level e < 8) (path n ^^ tokn [61] ^^ text e)
    | EList es => fun s => paren (body es) s \/ brack (items es) s
    | ESeq es => paren (body es)
    | ESend e m es => only (receiver e) (text e ^^ name m ^^ paren (body es))
    | ESend0 e m => only (receiver e) (text e ^^ name m)
    | ESelfSend m es => name m ^^ paren (body es)
    | ECallVar x es | ECallUp x es => name x ^^ paren (body es)
    | ECallVal e es => only (receiver e /\ open_end e = false) (text e ^^ paren (body es))
    | EIf c b k => tok t_if ^^ paren (text c ^^ maybe separator) ^^ blk (body b) ^^ text_clauses k
    | EWhile c b => tok t_while ^^ paren (text c ^^ maybe separator) ^^ blk (body b)
    | ELoop b => tok t_loop ^^ blk (body b)
    | EBreak => tok t_break
    | ECont => tok t_continue
    | EReturn e => tok t_return ^^ paren (text e ^^ maybe separator)
    | ELick _ _ => fun _ => False            (* licks are written between square brackets only *)
    | EAt _ x k => bare_name x ^^ brack (index k ^^ maybe separator)    (* no white space before the bracket *)
    | EFun l ps b => only (ps <> []) (paren (params ps) ^^ blk (body b))
    end
  (** statements, with separators between them, and possibly after them *)
  with body (es : exps) : lang :=
    match es with
    | Nil => empty
    | Cons e es => text e ^^ match es with Nil => maybe separator | _ => separator ^^ body es end
    end
  (** licks between square brackets: a name, then possibly an inner value (a literal or
      a list in square brackets) and a list of attributes in parentheses *)
  with items (es : exps) : lang :=
    match es with
    | Nil => empty
    | Cons e es =>
        match e with
        | ELick n ps =>
            name n ^^
            match ps with
            | Nil => empty
            | Cons a Nil =>
                match a with ELit v => literal v | EList l => brack (items l) | _ => fun _ => False end
            | Cons a (Cons b Nil) =>
                match a, b with
                | ELit v, EList l => if v =? PN_NIL then paren (body l) else either_order (literal v) (paren (body l))
                | EList c, EList l => either_order (brack (items c)) (paren (body l))
                | _, _ => fun _ => False
                end
            | _ => fun _ => False
            end
        | _ => fun _ => False
        end ^^ match es with Nil => maybe separator | _ => separator ^^ items es end
    end
  with text_clauses (k : clauses) : lang :=
    match k with
    | KEnd => empty
    | KElse b => tok t_else ^^ blk (body b)
    | KElsif c b k => tok t_elsif ^^ paren (text c ^^ maybe separator) ^^ blk (body b) ^^ text_clauses k
    end.
  (** a program: white space, then statements *)
  Definition program_text (es : exps) : lang := fun s => exists g t, lines g /\ body es t /\ s = g ++ t.
End Text.

(** what the string table must satisfy: the keywords have the words the rest of the
    model uses, and no string is nil *)
Record names_ok (str : list Z -> Z) : Prop := {
  n_if : str t_if = PN_if; n_elsif : str t_elsif = PN_elsif; n_else : str t_else = PN_else;
  n_while : str t_while = PN_while; n_loop : str t_loop = PN_loop; n_return : str t_return = PN_return;
  n_break : str t_break = PN_break; n_continue : str t_continue = PN_continue; n_self : str t_self = PN_self;
  n_nil : forall l, str l <> PN_NIL }.
