(** Model of the parser: the grammar of core/syntax.y as data for PegModel, its
    actions, and potion_parse / potion_sig.

    - A value on the parser's stack, or in G->ss ("$$"), is an [sf]: nil, a word
      (an immediate or a pointer to a string), a tuple of trees, or a tree.
    - [str] stands for the string table (PN_STRN and potion_bytes_string return the
      interned string of the given bytes), [dbl] for potion_strtod: parameters.
    - PN_AST of a part with one or two fields leaves the others unset
      (potion_source, ast.c 36-61); they are never read; here they are nil.
    - In-place update: only the call rule updates a node (the one just made).
    - Line numbers and P->line are not modelled.
    - The tuple of a signature inside an extern tree is shown as a LIST node (a
      tuple does not fit inside a tuple of trees). *)
From Verif Require Import Base WordModel NumModel Utf8Model CompileModel PegModel.

(** ** The rules (syntax.y 60-383) *)
Inductive rule :=
| r_potion | r_statements | r_stmt | r_sets | r_eqs | r_cmps | r_bitors | r_bitand | r_bitshift
| r_sum | r_product | r_power | r_expr | r_atom | r_call | r_extern | r_name
| r_lick_items | r_lick_item | r_loose | r_closure | r_list | r_block | r_lick | r_group | r_tuple
| r_path | r_msg | r_value | r_immed | r_utff | r_utfw | r_utf8 | r_comma
| r_block_start | r_block_end | r_list_start | r_list_end | r_lick_start | r_lick_end
| r_group_start | r_group_end | r_quiz | r_assign | r_defassign | r_pplus | r_mminus | r_minus
| r_plus | r_wavy | r_times | r_div | r_rem | r_pow | r_bitl | r_bitr | r_amp | r_caret | r_pipe
| r_lt | r_lte | r_gt | r_gte | r_neq | r_eq | r_cmp | r_and | r_or | r_not | r_keyword
| r_nil | r_true | r_false | r_hexl | r_hex | r_dec | r_q1 | r_c1 | r_str1
| r_esc | r_escn | r_escb | r_escf | r_escr | r_esct | r_escu | r_escU | r_escc
| r_q2 | r_e2 | r_c2 | r_str2 | r_unq_char | r_unq_sep | r_unquoted
| r_sp | r_nl | r_sep | r_comment | r_space | r_eol | r_eof
| r_sig | r_args | r_arg_list | r_arg_set | r_arg_name | r_arg_modifier | r_arg_type | r_arg
| r_optional | r_arg_rest | r_arg_sep.

(** ** The actions; [k], [x], ... are offsets of variables *)
Inductive act :=
| ACode (k : Z)                  (* $$ = P->source = PN_AST(CODE, k) *)
| ATup (k : Z)                   (* $$ = k = PN_TUP(k) *)
| APush (k x : Z)                (* $$ = k = PN_PUSH(k, x) *)
| ANil                           (* $$ = PN_NIL *)
| AOp (p : part) (k x : Z)       (* k = PN_OP(p, k, x); also PN_AST2(ASSIGN, k, x) *)
| AAsgOp (p : part) (k x : Z)    (* k = PN_AST2(ASSIGN, k, PN_OP(p, k, x)) *)
| ARet (k : Z)                   (* $$ = k *)
| AUn (p : part) (k : Z)         (* k = PN_AST(p, k) *)
| AZero (p : part) (k : Z)       (* k = PN_OP(p, PN_AST(VALUE, PN_ZERO), k) *)
| AInc (w : Z) (k : Z)           (* k = PN_OP(AST_INC, k, w) *)
| ATupq (k : Z)                  (* k = PN_TUP(k) *)
| APushq (k x : Z)               (* k = PN_PUSH(k, x) *)
| AMk (p : part) (k : Z)         (* $$ = PN_AST(p, k) *)
| ACall0 (v b : Z)               (* v = PN_NIL; b = PN_NIL *)
| ACall1 (n b : Z)               (* n = PN_AST(MSG, PN_NIL); b = PN_NIL *)
| ACall (n v b : Z)              (* $$ = n; n->a[1] = v; n->a[2] = b *)
| ATup0                          (* P->source = PN_TUP0() *)
| AExtern1 (n : Z)               (* $$ = PN_AST2(MSG, PN_extern, PN_PUSH(PN_TUP(n), P->source)) *)
| AExtern0 (n : Z)               (* $$ = PN_AST2(MSG, PN_extern, PN_TUP(n)) *)
| ALick3 (m v t : Z)             (* $$ = PN_AST3(LICK, m, v, t) *)
| ALick2t (m t : Z)              (* $$ = PN_AST3(LICK, m, PN_NIL, t) *)
| ALick2 (m v : Z)               (* $$ = PN_AST2(LICK, m, v) *)
| AProto (t b : Z)               (* $$ = PN_AST2(PROTO, t, b) *)
| ATuple (m l : Z)               (* $$ = PN_AST2(LICK, PN_AST(MSG, m), l) *)
| AStrn                          (* $$ = PN_STRN(yytext, yyleng) *)
| ATrue | AFalse | AHex | ADec
| ATint | ATdbl                  (* $$ = YY_TINT, $$ = YY_TDBL *)
| AClear                         (* P->pbuf = potion_asm_clear(P, P->pbuf) *)
| AWrite                         (* ... potion_asm_write(P, P->pbuf, yytext, yyleng) *)
| AWrites (l : list Z)           (* ... potion_asm_write(P, P->pbuf, "...", 1) *)
| AEscu | AEscU
| ABytes                         (* $$ = potion_bytes_string(P, PN_NIL, P->pbuf) *)
| ALine                          (* ++G->lineno; ... *)
| AChar                          (* $$ = PN_NUM(yytext[0]) *)
| ATpl3 (n t m : Z) | ATpl3n (n m : Z) | ATpl2 (n t : Z) | ATplD (n d : Z) | ATpl1 (n : Z)
| ATplc (c : Z).                 (* SRC_TPL1(PN_NUM(c)) *)

Definition gpe := pe rule act.
Declare Scope peg_scope.
Delimit Scope peg_scope with peg.
Notation "a >> b" := (Seq a b) (at level 45, right associativity) : peg_scope.
Notation "a // b" := (Alt a b) (at level 48, right associativity) : peg_scope.
Open Scope peg_scope.

Definition rng (a b : Z) : Z -> bool := fun c => (a <=? c) && (c <=? b).
Definition is_digit (c : Z) : bool := rng 48 57 c.
Definition is_alpha (c : Z) : bool := rng 65 90 c || rng 97 122 c.
Definition is_hexl (c : Z) : bool := is_digit c || rng 65 70 c || rng 97 102 c.
(** [A-Za-z_$@] and [A-Za-z0-9_$@;`{}] *)
Definition utff1 (c : Z) : bool := is_alpha c || (c =? 95) || (c =? 36) || (c =? 64).
Definition utfw1 (c : Z) : bool :=
  utff1 c || is_digit c || (c =? 59) || (c =? 96) || (c =? 123) || (c =? 125).
Definition cont : gpe := Cls (rng 128 191).
(** the alternatives utff and utfw share (syntax.y 206-209) *)
Definition utf_high : gpe :=
     Str [196] >> Cls (rng 168 191)
  // Cls (rng 197 223) >> cont
  // Cls (rng 224 239) >> cont >> cont
  // Cls (rng 240 244) >> cont >> cont >> cont.
(** [NBIDS&oTaubnsFPlkftxrcdm] *)
Definition type_chars : list Z :=
  [78;66;73;68;83;38;111;84;97;117;98;110;115;70;80;108;107;102;116;120;114;99;100;109].

Definition s_and : list Z := [97; 110; 100].
Definition s_or : list Z := [111; 114].
Definition s_not : list Z := [110; 111; 116].
Definition s_nil : list Z := [110; 105; 108].
Definition s_true : list Z := [116; 114; 117; 101].
Definition s_false : list Z := [102; 97; 108; 115; 101].
Definition s_extern : list Z := [101; 120; 116; 101; 114; 110].

Definition sp_ : gpe := Rul r_sp.      (* -  *)
Definition nl_ : gpe := Rul r_nl.      (* -- *)

(** number of variables (tree.c 90-102: in order of first appearance, the last
    one having offset -1) *)
Definition nvars (r : rule) : Z :=
  match r with
  | r_potion => 1 | r_statements => 2 | r_stmt => 2 | r_sets => 2 | r_eqs => 2 | r_cmps => 2
  | r_bitors => 2 | r_bitand => 2 | r_bitshift => 2 | r_sum => 2 | r_product => 2 | r_power => 2
  | r_expr => 2 | r_atom => 1 | r_call => 3 | r_extern => 2 | r_name => 3
  | r_lick_items => 2 | r_lick_item => 3 | r_loose => 1 | r_closure => 2 | r_list => 1 | r_block => 1
  | r_lick => 1 | r_group => 1 | r_tuple => 2 | r_value => 2 | r_arg => 4
  | _ => 0
  end.

(** "op x:next { k = PN_OP(p, k, x) }" *)
Definition bin_alt (op nx : rule) (p : part) : gpe := Rul op >> Var (-1) nx >> Act (AOp p (-2) (-1)).
(** "op assign s:sets { e = PN_AST2(ASSIGN, e, PN_OP(p, e, s)) }" *)
Definition asg_alt (op : rule) (p : part) : gpe :=
  Rul op >> Rul r_assign >> Var (-1) r_sets >> Act (AAsgOp p (-2) (-1)).

(** syntax.y 60-383 *)
Definition grammar (r : rule) : gpe :=
  match r with
  (* 60 *)
  | r_potion => nl_ >> Var (-1) r_statements >> Rul r_eof >> Act (ACode (-1))
  (* 62-65; s1 = -2, s2 = -1 *)
  | r_statements =>
         Var (-2) r_stmt >> Act (ATup (-2))
         >> Star (Rul r_sep >> Var (-1) r_stmt >> Act (APush (-2) (-1)))
         >> Opt (Rul r_sep)
      // Str [] >> Act ANil
  (* 67-70 *)
  | r_stmt => Var (-2) r_sets >> Star (bin_alt r_or r_sets OR // bin_alt r_and r_sets AND)
              >> Act (ARet (-2))
  (* 72-88 *)
  | r_sets =>
      Var (-2) r_eqs
      >> Opt (Rul r_assign >> Var (-1) r_sets >> Act (AOp ASSIGN (-2) (-1))
           // Rul r_defassign >> Var (-1) r_value >> Act (AOp ASSIGN (-2) (-1))
           // asg_alt r_or OR // asg_alt r_and AND // asg_alt r_pipe PIPE // asg_alt r_caret CARET
           // asg_alt r_amp AMP // asg_alt r_bitl BITL // asg_alt r_bitr BITR // asg_alt r_plus PLUS
           // asg_alt r_minus MINUS // asg_alt r_times TIMES // asg_alt r_div DIV // asg_alt r_rem REM
           // asg_alt r_pow POW)
      >> Act (ARet (-2))
  (* 90-94 *)
  | r_eqs => Var (-2) r_cmps
             >> Star (bin_alt r_cmp r_cmps CMP // bin_alt r_eq r_cmps EQ // bin_alt r_neq r_cmps NEQ)
             >> Act (ARet (-2))
  (* 96-101 *)
  | r_cmps => Var (-2) r_bitors
              >> Star (bin_alt r_gte r_bitors GTE // bin_alt r_gt r_bitors GT
                    // bin_alt r_lte r_bitors LTE // bin_alt r_lt r_bitors LT)
              >> Act (ARet (-2))
  (* 103-106 *)
  | r_bitors => Var (-2) r_bitand
                >> Star (bin_alt r_pipe r_bitand PIPE // bin_alt r_caret r_bitand CARET)
                >> Act (ARet (-2))
  (* 108-110 *)
  | r_bitand => Var (-2) r_bitshift >> Star (bin_alt r_amp r_bitshift AMP) >> Act (ARet (-2))
  (* 112-115 *)
  | r_bitshift => Var (-2) r_sum >> Star (bin_alt r_bitl r_sum BITL // bin_alt r_bitr r_sum BITR)
                  >> Act (ARet (-2))
  (* 117-120 *)
  | r_sum => Var (-2) r_product >> Star (bin_alt r_plus r_product PLUS // bin_alt r_minus r_product MINUS)
             >> Act (ARet (-2))
  (* 122-126 *)
  | r_product => Var (-2) r_power
                 >> Star (bin_alt r_times r_power TIMES // bin_alt r_div r_power DIV // bin_alt r_rem r_power REM)
                 >> Act (ARet (-2))
  (* 128-130 *)
  | r_power => Var (-2) r_expr >> Star (bin_alt r_pow r_expr POW) >> Act (ARet (-2))
  (* 132-141; a = -2, c = -1 *)
  | r_expr =>
      (   Rul r_not >> Var (-2) r_expr >> Act (AUn NOT (-2))
       // Rul r_wavy >> Var (-2) r_expr >> Act (AUn WAVY (-2))
       // Rul r_minus >> Nt (Rul r_minus) >> Var (-2) r_atom >> Act (AZero MINUS (-2))
       // Rul r_plus >> Nt (Rul r_plus) >> Var (-2) r_atom >> Act (AZero PLUS (-2))
       // Rul r_mminus >> Var (-2) r_atom >> Act (AInc (Z.lxor (PN_NUM (-1)) 1) (-2))
       // Rul r_pplus >> Var (-2) r_atom >> Act (AInc (Z.lxor (PN_NUM 1) 1) (-2))
       // Var (-2) r_atom >> Opt (   Rul r_pplus >> Act (AInc (PN_NUM 1) (-2))
                                  // Rul r_mminus >> Act (AInc (PN_NUM (-1)) (-2))))
      >> Act (ATupq (-2))
      >> Star (Var (-1) r_call >> Act (APushq (-2) (-1)))
      >> Act (AMk EXPR (-2))
  (* 143 *)
  | r_atom => Var (-1) r_value // Var (-1) r_closure // Var (-1) r_list // Var (-1) r_extern // Var (-1) r_call
  (* 145-147; n = -3, v = -2, b = -1 *)
  | r_call =>
      (   Var (-3) r_name >> Act (ACall0 (-2) (-1))
          >> Opt (Var (-2) r_value // Var (-2) r_list)
          >> Opt (Var (-1) r_block // Var (-1) r_closure)
       // (Var (-2) r_value // Var (-2) r_list) >> Act (ACall1 (-3) (-1)) >> Opt (Var (-1) r_block))
      >> Act (ACall (-3) (-2) (-1))
  (* 149-152; n = -2, l = -1 *)
  | r_extern =>
         Str s_extern >> sp_ >> Var (-2) r_name >> Rul r_list_start >> Act ATup0
         >> Var (-1) r_arg_list >> Rul r_list_end >> Act (AExtern1 (-2))
      // Str s_extern >> sp_ >> Var (-2) r_name >> Act (AExtern0 (-2))
  (* 154-159; p = -3, m = -2, t = -1 *)
  | r_name =>
         Var (-3) r_path >> Act (AMk PATH (-3))
      // Rul r_quiz >> (   Var (-2) r_msg >> sp_ >> Act (AMk QUERY (-2))
                        // Var (-3) r_path >> Act (AMk PATHQ (-3)))
      // Var (-1) r_tuple >> sp_ >> Act (AMk VALUE (-1))
      // Nt (Rul r_keyword) >> Var (-2) r_msg >> sp_ >> Act (AMk MSG (-2))
  (* 161-164 *)
  | r_lick_items =>
         Var (-2) r_lick_item >> Act (ATup (-2))
         >> Star (Rul r_sep >> Var (-1) r_lick_item >> Act (APush (-2) (-1)))
         >> Opt (Rul r_sep)
      // Str [] >> Act ANil
  (* 166-171; m = -3, t = -2, v = -1 *)
  | r_lick_item =>
         Var (-3) r_msg >> sp_ >> Var (-2) r_list >> Var (-1) r_loose >> Act (ALick3 (-3) (-1) (-2))
      // Var (-3) r_msg >> sp_ >> Var (-2) r_list >> Act (ALick2t (-3) (-2))
      // Var (-3) r_msg >> sp_ >> Var (-1) r_loose >> Var (-2) r_list >> Act (ALick3 (-3) (-1) (-2))
      // Var (-3) r_msg >> sp_ >> Var (-1) r_loose >> Act (ALick2 (-3) (-1))
      // Var (-3) r_msg >> sp_ >> Act (AMk LICK (-3))
      // Var (-1) r_loose >> sp_ >> Act (AMk LICK (-1))
  (* 173-174 *)
  | r_loose => Rul r_value // Var (-1) r_unquoted >> Act (AMk VALUE (-1))
  (* 176-181; closure: t = -2, b = -1; tuple: m = -2, l = -1 *)
  | r_closure => Opt (Var (-2) r_list) >> Var (-1) r_block >> Act (AProto (-2) (-1))
  | r_list => Rul r_list_start >> Var (-1) r_statements >> Rul r_list_end >> Act (AMk LIST (-1))
  | r_block => Rul r_block_start >> Var (-1) r_statements >> Rul r_block_end >> Act (AMk BLOCK (-1))
  | r_lick => Rul r_lick_start >> Var (-1) r_lick_items >> Rul r_lick_end >> Act (AMk LIST (-1))
  | r_group => Rul r_group_start >> Var (-1) r_statements >> Rul r_group_end >> Act (AMk EXPR (-1))
  | r_tuple => Var (-2) r_msg >> Var (-1) r_lick >> Act (ATuple (-2) (-1))
  (* 183-186 *)
  | r_path => Chr 47 >> Bg >> Rul r_utff >> Star (Rul r_utfw) >> En >> sp_ >> Act AStrn
  | r_msg =>
         Bg >> Rul r_utff >> Star (Rul r_utfw // Cls (fun c => (c =? 46) || (c =? 58)))
         >> Plus (Rul r_utfw) >> Opt (Chr 63) >> En >> Act AStrn
      // Bg >> Rul r_utff >> Star (Rul r_utfw) >> Opt (Chr 63) >> En >> Act AStrn
  (* 188-191; i = -2, t = -1 *)
  | r_value =>
         Var (-2) r_immed >> sp_ >> Act (AMk VALUE (-2))
      // Var (-1) r_tuple >> sp_ >> Act (AMk VALUE (-1))
      // Rul r_lick
      // Rul r_group
  (* 193-202 *)
  | r_immed =>
         Rul r_nil >> Act ANil
      // Rul r_true >> Act ATrue
      // Rul r_false >> Act AFalse
      // Rul r_hex >> Act AHex
      // Rul r_dec >> Act ADec
      // Rul r_str1 // Rul r_str2
  (* 204-218 *)
  | r_utff => Cls utff1 // utf_high
  | r_utfw => Cls utfw1 // utf_high
  | r_utf8 =>
         Cls (fun c => (c =? 9) || rng 32 126 c)
      // Cls (rng 194 223) >> cont
      // Cls (rng 224 239) >> cont >> cont
      // Cls (rng 240 244) >> cont >> cont >> cont
      // Rul r_eol
  (* 220-254 *)
  | r_comma => Chr 44
  | r_block_start => Chr 58 >> nl_
  | r_block_end => Chr 46 >> sp_
  | r_list_start => Chr 40 >> nl_
  | r_list_end => Chr 41 >> sp_
  | r_lick_start => Chr 91 >> nl_
  | r_lick_end => Chr 93 >> sp_
  | r_group_start => Chr 124 >> nl_
  | r_group_end => Chr 46 >> sp_
  | r_quiz => Chr 63 >> nl_
  | r_assign => Chr 61 >> nl_
  | r_defassign => Str [58; 61] >> nl_
  | r_pplus => Str [43; 43] >> sp_
  | r_mminus => Str [45; 45] >> sp_
  | r_minus => Chr 45 >> nl_
  | r_plus => Chr 43 >> nl_
  | r_wavy => Chr 126 >> nl_
  | r_times => Chr 42 >> nl_
  | r_div => Chr 47 >> nl_
  | r_rem => Chr 37 >> nl_
  | r_pow => Str [42; 42] >> nl_
  | r_bitl => Str [60; 60] >> nl_
  | r_bitr => Str [62; 62] >> nl_
  | r_amp => Chr 38 >> nl_
  | r_caret => Chr 94 >> nl_
  | r_pipe => Chr 124 >> nl_
  | r_lt => Chr 60 >> nl_
  | r_lte => Str [60; 61] >> nl_
  | r_gt => Chr 62 >> nl_
  | r_gte => Str [62; 61] >> nl_
  | r_neq => Str [33; 61] >> nl_
  | r_eq => Str [61; 61] >> nl_
  | r_cmp => Str [60; 61; 62] >> nl_
  | r_and => (Str [38; 38] // Str s_and >> Nt (Rul r_utfw)) >> nl_
  | r_or => (Str [124; 124] // Str s_or >> Nt (Rul r_utfw)) >> nl_
  | r_not => (Chr 33 // Str s_not >> Nt (Rul r_utfw)) >> nl_
  | r_keyword => (Str s_and // Str s_or // Str s_not) >> Nt (Rul r_utfw)
  (* 256-265 *)
  | r_nil => Str s_nil >> Nt (Rul r_utfw)
  | r_true => Str s_true >> Nt (Rul r_utfw)
  | r_false => Str s_false >> Nt (Rul r_utfw)
  | r_hexl => Cls is_hexl
  | r_hex => Str [48; 120] >> Bg >> Plus (Rul r_hexl) >> En
  | r_dec =>
      Bg >> (Chr 48 // Opt (Chr 45) >> Cls (rng 49 57) >> Star (Cls is_digit)) >> Act ATint
      >> Opt (Chr 46 >> Plus (Cls is_digit) >> Act ATdbl)
      >> Opt (Chr 101 >> Cls (fun c => (c =? 45) || (c =? 43)) >> Plus (Cls is_digit) >> Act ATdbl) >> En
  (* 267-271 *)
  | r_q1 => Chr 39
  | r_c1 => Bg >> Plus (Nt (Rul r_q1) >> Rul r_utf8) >> En >> Act AWrite
  | r_str1 => Rul r_q1 >> Act AClear
              >> Bg >> Star (Rul r_q1 >> Rul r_q1 >> Act (AWrites [39]) // Rul r_c1) >> En
              >> Rul r_q1 >> Act ABytes
  (* 273-328 *)
  | r_esc => Chr 92
  | r_escn => Rul r_esc >> Chr 110 >> Act (AWrites [10])
  | r_escb => Rul r_esc >> Chr 98 >> Act (AWrites [8])
  | r_escf => Rul r_esc >> Chr 102 >> Act (AWrites [12])
  | r_escr => Rul r_esc >> Chr 114 >> Act (AWrites [13])
  | r_esct => Rul r_esc >> Chr 116 >> Act (AWrites [9])
  | r_escu => Rul r_esc >> Chr 117 >> Bg >> Rul r_hexl >> Rul r_hexl >> Rul r_hexl >> Rul r_hexl >> En >> Act AEscu
  | r_escU => Rul r_esc >> Chr 85 >> Chr 123 >> Bg >> Plus (Rul r_hexl) >> En >> Chr 125 >> Act AEscU
  | r_escc => Rul r_esc >> Bg >> Rul r_utf8 >> En >> Act AWrite
  (* 330-335 *)
  | r_q2 => Chr 34
  | r_e2 => Chr 92 >> Chr 34 >> Act (AWrites [34])
  | r_c2 => Bg >> Plus (Nt (Rul r_q2) >> Nt (Rul r_esc) >> Rul r_utf8) >> En >> Act AWrite
  | r_str2 => Rul r_q2 >> Act AClear
              >> Bg >> Star (Rul r_e2 // Rul r_escn // Rul r_escb // Rul r_escf // Rul r_escr // Rul r_esct
                             // Rul r_escu // Rul r_escU // Rul r_escc // Rul r_c2) >> En
              >> Rul r_q2 >> Act ABytes
  (* 337-342 *)
  | r_unq_char =>
         Chr 123 >> Plus (Rul r_unq_char) >> Chr 125
      // Chr 91 >> Plus (Rul r_unq_char) >> Chr 93
      // Chr 40 >> Plus (Rul r_unq_char) >> Chr 41
      // Nt (Chr 123) >> Nt (Chr 91) >> Nt (Chr 40) >> Nt (Chr 125) >> Nt (Chr 93) >> Nt (Chr 41) >> Rul r_utf8
  | r_unq_sep => Rul r_sep >> Nt (Chr 123) >> Nt (Chr 91) >> Nt (Chr 40)
  | r_unquoted => Bg >> Plus (Nt (Rul r_unq_sep) >> Nt (Rul r_lick_end) >> Rul r_unq_char) >> En >> Act AStrn
  (* 344-351 *)
  | r_sp => Star (Rul r_space // Rul r_comment)
  | r_nl => Star (Rul r_space // Rul r_comment // Rul r_eol)
  | r_sep => (Rul r_eol // Rul r_comma) >> Star (Rul r_space // Rul r_comment // Rul r_eol // Rul r_comma)
  | r_comment => Chr 35 >> Star (Nt (Rul r_eol) >> Rul r_utf8)
  | r_space => Chr 32 // Chr 12 // Chr 11 // Chr 9
  | r_eol => (Str [13; 10] // Chr 10 // Chr 13) >> Act ALine
  | r_eof => Nt Dot
  (* 353-383; arg: m = -4, n = -3, t = -2, d = -1 *)
  | r_sig => Plus (Rul r_args) >> Rul r_eof
  | r_args => Rul r_arg_list >> Star (Rul r_arg_sep >> Rul r_arg_list)
  | r_arg_list => Rul r_arg_set >> Opt (Rul r_optional >> Rul r_arg_set) // Rul r_optional >> Rul r_arg_set
  | r_arg_set => Rul r_arg >> Star (Rul r_comma >> sp_ >> Rul r_arg)
  | r_arg_name => Bg >> Rul r_utff >> Star (Rul r_utfw) >> En >> sp_ >> Act AStrn
  | r_arg_modifier => Bg >> (Chr 45 // Chr 92 // Chr 42) >> En >> Act AChar
  | r_arg_type => Bg >> Cls (fun c => existsb (Z.eqb c) type_chars) >> En >> sp_ >> Act AChar
  | r_arg =>
         Var (-4) r_arg_modifier >> Var (-3) r_arg_name >> Rul r_assign >> Var (-2) r_arg_type
           >> Act (ATpl3 (-3) (-2) (-4))
      // Var (-4) r_arg_modifier >> Var (-3) r_arg_name >> Act (ATpl3n (-3) (-4))
      // Var (-3) r_arg_name >> Rul r_assign >> Var (-2) r_arg_type >> Act (ATpl2 (-3) (-2))
      // Var (-3) r_arg_name >> Rul r_defassign >> Var (-1) r_value >> Act (ATplD (-3) (-1))
      // Var (-3) r_arg_name >> Act (ATpl1 (-3))
      // Rul r_arg_rest
  | r_optional => Chr 124 >> sp_ >> Act (ATplc 124)
  | r_arg_rest => Str [46; 46; 46] >> sp_ >> Act (ATplc 46)
  | r_arg_sep => Chr 46 >> sp_ >> Act (ATplc 46)
  end.

(** ** Running the delayed actions *)
(** the parser state the actions work on: G->ss, G->vals with G->val pointing
    at [top], P->pbuf, P->source while it is a tree / while it is a signature tuple *)
Record pst := mkP { yy : sf; vals : Z -> sf; top : Z; pbuf : list Z; psource : sf; psig : list sf }.
Definition val (st : pst) (k : Z) : sf := vals st (top st + k).
Definition upd_val (f : Z -> sf) (i : Z) (v : sf) : Z -> sf := fun j => if j =? i then v else f j.
Definition set_yy (v : sf) (st : pst) : pst := mkP v (vals st) (top st) (pbuf st) (psource st) (psig st).
Definition set_val (k : Z) (v : sf) (st : pst) : pst :=
  mkP (yy st) (upd_val (vals st) (top st + k) v) (top st) (pbuf st) (psource st) (psig st).
Definition set_top (n : Z) (st : pst) : pst := mkP (yy st) (vals st) n (pbuf st) (psource st) (psig st).
Definition set_pbuf (l : list Z) (st : pst) : pst := mkP (yy st) (vals st) (top st) l (psource st) (psig st).
Definition set_psource (v : sf) (st : pst) : pst := mkP (yy st) (vals st) (top st) (pbuf st) v (psig st).
Definition set_psig (l : list sf) (st : pst) : pst := mkP (yy st) (vals st) (top st) (pbuf st) (psource st) l.

(** what running the actions ends in: a state; YY_ERROR (which exits); or an action
    applied to a value it cannot work on, undefined behaviour *)
Inductive xres := XOk (st : pst) | XError | XUB.

Section Actions.
  Context (str dbl : list Z -> Z).
  Definition tup (v : sf) (k : sf -> xres) : xres :=
    match v with SSrc s => k (STup [s]) | _ => XUB end.
  Definition push (v x : sf) (k : sf -> xres) : xres :=
    match v, x with STup l, SSrc s => k (STup (l ++ [s])) | _, _ => XUB end.
  Definition N1 (p : part) (a : sf) : sf := SSrc (Src p a SNil SNil).
  Definition N2 (p : part) (a b : sf) : sf := SSrc (Src p a b SNil).
  Definition word (r : res Z) (st : pst) : xres :=
    match r with Ok w => XOk (set_yy (SVal w) st) | _ => XUB end.
  Definition hexnum (t : list Z) : res Z := PN_ATOI (t ++ [0]) (length t) 16.
  Definition write (l : list Z) (st : pst) : xres := XOk (set_pbuf (pbuf st ++ l) st).
  Definition escape (f : Z -> option (list Z)) (t : list Z) (st : pst) : xres :=
    match hexnum t with
    | Ok c => match f (u64 c) with Some l => write l st | None => XError end
    | _ => XUB
    end.
  Definition tpl (l : list sf) (st : pst) : xres := XOk (set_psig (psig st ++ l) st).
  (** a signature as a node, see above *)
  Definition sig_node (l : list sf) : src := Src LIST (STup (map (fun v => Src VALUE v SNil SNil) l)) SNil SNil.
  Definition do_act (a : act) (t : list Z) (st : pst) : xres :=
    match a with
    | ACode k => let v := N1 CODE (val st k) in XOk (set_psource v (set_yy v st))
    | ATup k => tup (val st k) (fun v => XOk (set_yy v (set_val k v st)))
    | APush k x => push (val st k) (val st x) (fun v => XOk (set_yy v (set_val k v st)))
    | ANil => XOk (set_yy SNil st)
    | AOp p k x => XOk (set_val k (N2 p (val st k) (val st x)) st)
    | AAsgOp p k x => XOk (set_val k (N2 ASSIGN (val st k) (N2 p (val st k) (val st x))) st)
    | ARet k => XOk (set_yy (val st k) st)
    | AUn p k => XOk (set_val k (N1 p (val st k)) st)
    | AZero p k => XOk (set_val k (N2 p (N1 VALUE (SVal PN_ZERO)) (val st k)) st)
    | AInc w k => XOk (set_val k (N2 INC (val st k) (SVal w)) st)
    | ATupq k => tup (val st k) (fun v => XOk (set_val k v st))
    | APushq k x => push (val st k) (val st x) (fun v => XOk (set_val k v st))
    | AMk p k => XOk (set_yy (N1 p (val st k)) st)
    | ACall0 v b => XOk (set_val b SNil (set_val v SNil st))
    | ACall1 n b => XOk (set_val b SNil (set_val n (N1 MSG SNil) st))
    | ACall n v b =>
        match val st n with
        | SSrc (Src p a _ _) => XOk (set_yy (SSrc (Src p a (val st v) (val st b))) st)
        | _ => XUB
        end
    | ATup0 => XOk (set_psig [] st)
    | AExtern1 n => tup (val st n) (fun v => push v (SSrc (sig_node (psig st)))
                      (fun v => XOk (set_yy (N2 MSG (SVal PN_extern) v) st)))
    | AExtern0 n => tup (val st n) (fun v => XOk (set_yy (N2 MSG (SVal PN_extern) v) st))
    | ALick3 m v t => XOk (set_yy (SSrc (Src LICK (val st m) (val st v) (val st t))) st)
    | ALick2t m t => XOk (set_yy (SSrc (Src LICK (val st m) SNil (val st t))) st)
    | ALick2 m v => XOk (set_yy (N2 LICK (val st m) (val st v)) st)
    | AProto t b => XOk (set_yy (N2 PROTO (val st t) (val st b)) st)
    | ATuple m l => XOk (set_yy (N2 LICK (N1 MSG (val st m)) (val st l)) st)
    | AStrn => XOk (set_yy (SVal (str t)) st)
    | ATrue => XOk (set_yy (SVal PN_TRUE) st)
    | AFalse => XOk (set_yy (SVal PN_FALSE) st)
    | AHex => word (lit_hex t) st
    | ADec => match yy st with
              | SVal 3 => word (lit_dec t) st
              | _ => XOk (set_yy (SVal (dbl t)) st)
              end
    | ATint => XOk (set_yy (SVal 3) st)
    | ATdbl => XOk (set_yy (SVal 13) st)
    | AClear => XOk (set_pbuf [] st)
    | AWrite => write t st
    | AWrites l => write l st
    | AEscu => escape escu t st
    | AEscU => escape escU t st
    | ABytes => XOk (set_yy (SVal (str (pbuf st))) st)
    | ALine => XOk st
    | AChar => match t with c :: _ => XOk (set_yy (SVal (PN_NUM c)) st) | [] => XUB end
    | ATpl3 n t m => tpl [val st n; val st t; val st m] st
    | ATpl3n n m => tpl [val st n; SNil; val st m] st
    | ATpl2 n t => tpl [val st n; val st t] st
    | ATplD n d => match val st d with
                   | SSrc s => tpl [val st n; SVal (PN_NUM 58); s0 s] st
                   | _ => XUB
                   end
    | ATpl1 n => tpl [val st n] st
    | ATplc c => tpl [SVal (PN_NUM c)] st
    end.
  (** compile.c 813-837 yyPush, yyPop, yySet *)
  Definition do_thunk (t : thunk act) (st : pst) : xres :=
    match t with
    | TPush n => XOk (set_top (top st + n) st)
    | TPop n => XOk (set_top (top st - n) st)
    | TSet k => XOk (set_val k (yy st) st)
    | TAct a text => do_act a text st
    end.
  (** compile.c 775-788 yyDone *)
  Fixpoint exec (l : list (thunk act)) (st : pst) : xres :=
    match l with
    | [] => XOk st
    | t :: l => match do_thunk t st with XOk st' => exec l st' | r => r end
    end.

  (** compile.c 850-884 yyparse_from; G->vals is malloc'ed: [junk] is what it holds *)
  Definition start_pst (junk : Z -> sf) : pst := mkP SNil junk 0 [] SNil [].
  Inductive parsed := PTree (t : src) | PReject | PError | PUndef.
  (** syntax.y 387-418 potion_parse, with fuel *)
  Definition parse_n (n : nat) (junk : Z -> sf) (input : list Z) : option parsed :=
    match run grammar nvars n (Rul r_potion) input (input, input) with
    | None => None
    | Some (Fail _) => Some PReject
    | Some (Match _ _ l) =>
        Some match exec l (start_pst junk) with
             | XOk st => match psource st with
                         | SSrc t => if part_eqb (sp t) CODE then PTree t else PReject
                         | _ => PUndef
                         end
             | XError => PError
             | XUB => PUndef
             end
    end.
  (** syntax.y 443-474 potion_sig, with fuel, for a non-empty text.  P->pbuf is NULL
      here (line 452), and the action at the start of a quoted string,
      potion_asm_clear(P, P->pbuf) (asm.c 20-24), dereferences it *)
  Inductive sigd := PSig (l : list sf) | PSReject | PSError | PSUndef.
  Definition clears (t : thunk act) : bool := match t with TAct AClear _ => true | _ => false end.
  Definition sig_n (n : nat) (junk : Z -> sf) (input : list Z) : option sigd :=
    match run grammar nvars n (Rul r_sig) input (input, input) with
    | None => None
    | Some (Fail _) => Some PSReject
    | Some (Match _ _ l) =>
        Some (if existsb clears l then PSUndef else
             match exec l (start_pst junk) with
             | XOk st => PSig (psig st)
             | XError => PSError
             | XUB => PSUndef
             end)
    end.
End Actions.
