(** Specification of the source language, independent of the compiler and of the
    interpreter: syntax, how the parser represents it as trees, static scoping,
    and a big-step evaluator.

    What the runtime does on non-integer values (doubles, strings, objects, ...)
    is the business of the host world, in the specification as in the machine: the
    evaluator calls the same primitives.  Everything else (order of evaluation,
    integer arithmetic, variables, control flow, calls of functions written in the
    language) is defined here. *)
From Verif Require Import Base WordModel CompileModel VmModel.

(** ** Syntax *)
(** what stands in the brackets of x[..] *)
Inductive akey :=
| AInt (i : Z)                         (* x[3] *)
| AVar (y : Z)                         (* x[y] *)
| AKey (v : Z).                        (* x['key'] *)
Inductive exp :=
| ELit (v : Z)                         (* 42   'x'   nil *)
| EVar (x : Z)                         (* a variable of the function *)
| EUp (x : Z)                          (* a variable of an enclosing function *)
| ESelf
| EBin (p : part) (a b : exp)          (* a + b   a == b  ... *)
| ENot (a : exp) | EBitn (a : exp)     (* not a   ~a *)
| EAnd (a b : exp) | EOr (a b : exp)
| ESet (x : Z) (e : exp)               (* x = e *)
| EUpSet (x : Z) (e : exp)
| EGlob (x : Z) (e : exp)              (* X = e *)
| EInc (x : Z) (up post : bool)        (* ++x  --x  x++  x-- *)
| EPath (n : Z)                        (* /n *)
| EPathOf (e : exp) (n : Z)            (* e /n *)
| EPathSet (n : Z) (e : exp)           (* /n = e *)
| EList (es : exps)                    (* (a, b, c) *)
| ESend (e : exp) (m : Z) (es : exps)  (* e m (a, b) *)
| ESend0 (e : exp) (m : Z)             (* e m *)
| ESelfSend (m : Z) (es : exps)        (* m (a, b) *)
| ESelfSend0 (m : Z)                   (* m *)
| ECallVar (x : Z) (es : exps)         (* x (a, b), x a variable *)
| ECallUp (x : Z) (es : exps)
| ECallVal (e : exp) (es : exps)       (* e (a, b) *)
| EIf (c : exp) (b : exps) (k : clauses)
| EWhile (c : exp) (b : exps)
| ELoop (b : exps)
| EBreak | ECont
| EReturn (e : exp)
| ESeq (es : exps)                     (* (a, b) as an operand of an operator *)
| ELick (n : Z) (es : exps)            (* n   n 'x'   n [..]   n 'x' (a, b)   n (a, b), an item of [..] *)
| EAt (up : bool) (x : Z) (k : akey)   (* x[3]   x[y]   x['key'], x a variable, of an enclosing function if up *)
| EFun (l : Z) (ps : list Z) (b : exps)  (* (p, q): body.   l: its number *)
with exps := Nil | Cons (e : exp) (es : exps)
with clauses := KEnd | KElse (b : exps) | KElsif (c : exp) (b : exps) (k : clauses).

Fixpoint elen (es : exps) : Z := match es with Nil => 0 | Cons _ es => 1 + elen es end.

(** ** The tree the parser builds (syntax.y) *)
Definition S1 (p : part) (a : sf) : src := Src p a SNil SNil.
Definition ListOf (l : list src) : sf := SSrc (S1 LIST (match l with [] => SNil | _ => STup l end)).
Definition BlockOf (l : list src) : sf := SSrc (S1 BLOCK (match l with [] => SNil | _ => STup l end)).
Definition MsgOf (n : Z) (a1 a2 : sf) : src := Src MSG (SVal n) a1 a2.
Definition ValOf (v : Z) : src := S1 VALUE (if v =? PN_NIL then SNil else SVal v).
(** does the tree stand alone (eqs / sets / stmt rules), or inside an expr? *)
Definition bare (e : exp) : bool :=
  match e with
  | EBin _ _ _ | EAnd _ _ | EOr _ _ | ESet _ _ | EUpSet _ _ | EGlob _ _ | EPathSet _ _ | ELick _ _ => true
  | _ => false
  end.
(** the parts of a lick after its name: an inner value, then a list of attributes; a
    lick with attributes only is written here with nil as its inner value *)
Definition no_inner (e : exp) : bool := match e with ELit v => v =? PN_NIL | _ => false end.
Definition one (l : list src) : sf := match l with t :: _ => SSrc t | [] => SNil end.
Definition lick_value (e : exp) : bool := match e with ELit _ | EList _ => true | _ => false end.
Definition is_list (e : exp) : bool := match e with EList _ => true | _ => false end.
Definition lick_parts (es : exps) : bool :=
  match es with
  | Nil => true
  | Cons a Nil => lick_value a
  | Cons a (Cons b Nil) => lick_value a && is_list b
  | _ => false
  end.
(** PN_NUM(1), PN_NUM(-1) for the postfix forms, with the low bit flipped for the
    prefix forms *)
Definition inc_word (up post : bool) : Z :=
  let w := PN_NUM (if up then 1 else -1) in if post then w else Z.lxor w 1.

Definition wrap (e : exp) (l : list src) : src :=
  match l with
  | [t] => if bare e then t else S1 EXPR (STup l)
  | _ => S1 EXPR (STup l)
  end.
(** the item of the brackets *)
Definition key_item (k : akey) : src :=
  match k with
  | AInt i => Src LICK (SSrc (ValOf (PN_NUM i))) SNil SNil
  | AVar y => Src LICK (SVal y) SNil SNil
  | AKey v => Src LICK (SSrc (ValOf v)) SNil SNil
  end.
Fixpoint emb (e : exp) : list src :=
  match e with
  | ELit v => [ValOf v]
  | EVar x | EUp x | ESelfSend0 x => [MsgOf x SNil SNil]
  | ESelf => [MsgOf PN_self SNil SNil]
  | EBin p a b => [Src p (SSrc (wrap a (emb a))) (SSrc (wrap b (emb b))) SNil]
  | ENot a => [Src NOT (SSrc (wrap a (emb a))) SNil SNil]
  | EBitn a => [Src WAVY (SSrc (wrap a (emb a))) SNil SNil]
  | EAnd a b => [Src AND (SSrc (wrap a (emb a))) (SSrc (wrap b (emb b))) SNil]
  | EOr a b => [Src OR (SSrc (wrap a (emb a))) (SSrc (wrap b (emb b))) SNil]
  | ESet x e | EUpSet x e | EGlob x e =>
      [Src ASSIGN (SSrc (S1 EXPR (STup [MsgOf x SNil SNil]))) (SSrc (wrap e (emb e))) SNil]
  | EInc x up post => [Src INC (SSrc (MsgOf x SNil SNil)) (SVal (inc_word up post)) SNil]
  | EPath n => [Src PATH (SVal n) SNil SNil]
  | EPathOf e n => emb e ++ [Src PATH (SVal n) SNil SNil]
  | EPathSet n e => [Src ASSIGN (SSrc (S1 EXPR (STup [Src PATH (SVal n) SNil SNil]))) (SSrc (wrap e (emb e))) SNil]
  | EList es | ESeq es => [S1 LIST (match es with Nil => SNil | _ => STup (stms es) end)]
  | ESend e m es => emb e ++ [MsgOf m (ListOf (stms es)) SNil]
  | ESend0 e m => emb e ++ [MsgOf m SNil SNil]
  | ESelfSend m es => [MsgOf m (ListOf (stms es)) SNil]
  | ECallVar x es | ECallUp x es => [MsgOf x (ListOf (stms es)) SNil]
  | ECallVal e es => emb e ++ [Src MSG SNil (ListOf (stms es)) SNil]
  | EIf c b k => MsgOf PN_if (ListOf [wrap c (emb c)]) (BlockOf (stms b)) :: embk k
  | EWhile c b => [MsgOf PN_while (ListOf [wrap c (emb c)]) (BlockOf (stms b))]
  | ELoop b => [MsgOf PN_loop SNil (BlockOf (stms b))]
  | EBreak => [MsgOf PN_break SNil SNil]
  | ECont => [MsgOf PN_continue SNil SNil]
  | EReturn e => [MsgOf PN_return (ListOf [wrap e (emb e)]) SNil]
  | ELick n es =>
      [match es with
       | Nil => Src LICK (SVal n) SNil SNil
       | Cons a Nil => Src LICK (SVal n) (one (emb a)) SNil
       | Cons a (Cons b _) => Src LICK (SVal n) (if no_inner a then SNil else one (emb a)) (one (emb b))
       end]
  | EAt _ x k => [S1 VALUE (SSrc (Src LICK (SSrc (S1 MSG (SVal x))) (SSrc (S1 LIST (STup [key_item k]))) SNil))]
  | EFun l ps b =>
      [Src PROTO (match ps with [] => SNil
                  | _ => SSrc (S1 LIST (STup (map (fun p => S1 EXPR (STup [MsgOf p SNil SNil])) ps))) end)
           (BlockOf (stms b)) SNil]
  end
with stms (es : exps) : list src :=
  match es with Nil => [] | Cons e es => wrap e (emb e) :: stms es end
with embk (k : clauses) : list src :=
  match k with
  | KEnd => []
  | KElse b => [MsgOf PN_else SNil (BlockOf (stms b))]
  | KElsif c b k => MsgOf PN_elsif (ListOf [wrap c (emb c)]) (BlockOf (stms b)) :: embk k
  end.
(** as a statement, a list item, an argument, an operand *)
Definition stm (e : exp) : src := wrap e (emb e).

(** ** Static rules *)
Definition memb (x : Z) (l : list Z) : bool := existsb (Z.eqb x) l.
Definition add (x : Z) (l : list Z) : list Z := if memb x l then l else l ++ [x].
Fixpoint nodup (l : list Z) : bool :=
  match l with [] => true | x :: l => negb (memb x l) && nodup l end.
Definition keyword (x : Z) : bool := memb x keywords.
(** is x a variable of an enclosing function? *)
Definition owned (enc : list (list Z)) (x : Z) : bool := existsb (memb x) enc.
Definition src_op (p : part) : bool :=
  match p with
  | EQ | NEQ | GTE | GT | LT | LTE | PLUS | MINUS | TIMES | DIV | REM | POW | BITL | BITR => true
  | _ => false
  end.
(** does the tree of e start with a parenthesised list? *)
Fixpoint head_list (e : exp) : bool :=
  match e with
  | EList _ | ESeq _ => true
  | EPathOf e _ | ESend e _ _ | ESend0 e _ | ECallVal e _ => head_list e
  | _ => false
  end.
Fixpoint head_seq (e : exp) : bool :=
  match e with
  | ESeq _ => true
  | EPathOf e _ | ESend e _ _ | ESend0 e _ | ECallVal e _ => head_seq e
  | _ => false
  end.
Definition is_assign (e : exp) : bool :=
  match e with ESet _ _ | EUpSet _ _ | EGlob _ _ | EPathSet _ _ => true | _ => false end.
Definition is_seq (e : exp) : bool := match e with ESeq _ => true | _ => false end.
(** an operand of an operator: a parenthesised expression, or one that does not
    start with a parenthesis *)
Definition operand (e : exp) : bool := is_seq e || negb (head_list e).

(** an expression that is certainly neither nil nor false *)
Definition truthy (e : exp) : bool :=
  match e with ELit v => PN_TEST v | ESelf => true | _ => false end.
Fixpoint truthy_last (es : exps) : bool :=
  match es with Nil => true | Cons e Nil => truthy e | Cons _ es => truthy_last es end.
(** Statements that may be followed by an else / elsif: a sufficient condition.
    (The compiled else tests a register that the preceding body may overwrite;
    see PropCompile for what happens otherwise.) *)
Fixpoint keeps (e : exp) : bool :=
  match e with
  | ELit _ | EVar _ | EUp _ | ESelf | EBreak | ECont | EReturn _ | EFun _ _ _ => true
  | EBin _ _ b => truthy b
  | ENot a | EBitn a | ESet _ a | EUpSet _ a => keeps a
  | EAnd a b | EOr a b => keeps a && keeps b
  | EGlob _ e => truthy e
  | EInc _ _ post => negb post
  | EPath n | EPathOf _ n | EPathSet n _ => PN_TEST n
  | EList es => truthy_last es
  | ESend e _ _ | ESend0 e _ => truthy e
  | ESelfSend _ _ | ESelfSend0 _ | ECallVar _ _ | ECallUp _ _ | ECallVal _ _ => true
  | EIf _ _ _ | EWhile _ _ | ELoop _ | ELick _ _ | EAt _ _ _ => false
  | ESeq es => keeps_all es
  end
with keeps_all (es : exps) : bool :=
  match es with Nil => true | Cons e es => keeps e && keeps_all es end.

(** registers needed above the target *)
Fixpoint need (e : exp) : Z :=
  match e with
  | ELit _ | EVar _ | EUp _ | ESelf | EBreak | ECont | EFun _ _ _ => 0
  | EBin _ a b => Z.max (need a) (1 + need b)
  | ENot a | EBitn a | ESet _ a | EUpSet _ a | EReturn a => need a
  | EAnd a b | EOr a b => Z.max (need a) (need b)
  | EGlob _ e => 1 + need e
  | EInc _ _ post => if post then 2 else 1
  | EPath _ => 1
  | EPathOf e _ => Z.max (need e) 1
  | EPathSet _ e => 2 + need e
  | EList es => need_items es
  | ESend e _ es | ECallVal e es => Z.max (need e) (1 + need_args es)
  | ESend0 e _ => Z.max (need e) 2
  | ESelfSend _ es | ECallVar _ es | ECallUp _ es => 1 + need_args es
  | ESelfSend0 _ => 2
  | EIf c b k => Z.max (1 + need c) (Z.max (need_all b) (need_clauses k))
  | EWhile c b => Z.max (1 + need c) (need_all b)
  | ELoop b => Z.max 1 (need_all b)
  | ESeq es => need_all es
  | ELick _ es => need_args es
  | EAt _ _ k => match k with AInt _ => 0 | _ => 1 end
  end
with need_all (es : exps) : Z :=
  match es with Nil => 0 | Cons e es => Z.max (need e) (need_all es) end
with need_items (es : exps) : Z :=
  match es with Nil => 0 | Cons e es => Z.max (1 + need e) (need_items es) end
with need_args (es : exps) : Z :=
  match es with Nil => 0 | Cons e es => 1 + Z.max (need e) (need_args es) end
with need_clauses (k : clauses) : Z :=
  match k with
  | KEnd => 0
  | KElse b => Z.max 1 (need_all b)
  | KElsif c b k => Z.max (1 + need c) (Z.max (need_all b) (need_clauses k))
  end.

Section Wf.
  Context (upper : Z -> bool).
  Definition guard (b : bool) (r : option (list Z)) : option (list Z) := if b then r else None.
  Definition obind {A B} (r : option A) (k : A -> option B) : option B :=
    match r with Some a => k a | None => None end.
  Definition plain (x : Z) : bool := negb (keyword x).
  (** an index is at most 1023 or a variable of the function; another constant is a key *)
  Definition key_ok (L : list Z) (k : akey) : bool :=
    match k with
    | AInt i => (0 <=? i) && (i <? 1024)
    | AVar y => memb y L
    | AKey v => negb (PN_IS_INT v)
    end.
  (** Scoping follows the text: a name is a variable from its first assignment on;
      before, and if no enclosing function has it, it is a message to self.
      [enc]: variables of the enclosing functions; [lp]: inside a loop; [L]: the
      variables of the function so far; the result is [L] after the expression. *)
  Fixpoint wf (enc : list (list Z)) (lp : bool) (L : list Z) (e : exp) : option (list Z) :=
    match e with
    | ELit _ | ESelf => Some L
    | EVar x => guard (plain x && memb x L) (Some L)
    | EUp x => guard (plain x && negb (memb x L) && owned enc x) (Some L)
    | EBin p a b => guard (src_op p && operand a && operand b)
                      (obind (wf enc lp L a) (fun L => wf enc lp L b))
    | ENot a | EBitn a => guard (operand a) (wf enc lp L a)
    | EAnd a b | EOr a b => guard (operand a && operand b)
                              (obind (wf enc lp L a) (fun L => wf enc lp L b))
    | ESet x e => guard (negb (upper x) && (memb x L || negb (owned enc x)) && negb (head_seq e))
                    (wf enc lp (add x L) e)
    | EUpSet x e => guard (negb (upper x) && negb (memb x L) && owned enc x && negb (head_seq e))
                      (wf enc lp L e)
    | EGlob x e => guard (upper x && negb (head_seq e)) (wf enc lp L e)
    | EInc x _ _ => guard (memb x L) (Some L)
    | EPath _ => Some L
    | EPathOf e _ => guard (negb (head_seq e)) (wf enc lp L e)
    | EPathSet _ e => guard (negb (head_seq e)) (wf enc lp L e)
    | EList es => wf_items enc lp L es
    | ESend e m es => guard (plain m && negb (head_seq e))
                        (obind (wf enc lp L e) (fun L => wf_items enc lp L es))
    | ESend0 e m => guard (plain m && negb (head_seq e)) (wf enc lp L e)
    | ESelfSend m es => guard (plain m && negb (memb m L) && negb (owned enc m)) (wf_items enc lp L es)
    | ESelfSend0 m => guard (plain m && negb (memb m L) && negb (owned enc m)) (Some L)
    | ECallVar x es => guard (plain x && memb x L) (wf_items enc lp L es)
    | ECallUp x es => guard (plain x && negb (memb x L) && owned enc x) (wf_items enc lp L es)
    | ECallVal e es => guard (negb (head_seq e)) (obind (wf enc lp L e) (fun L => wf_items enc lp L es))
    | EIf c b k => guard (negb (head_seq c) && match k with KEnd => true | _ => keeps_all b end)
                     (obind (wf enc lp L c) (fun L =>
                      obind (wf_all enc lp L b) (fun L => wf_clauses enc lp L k)))
    | EWhile c b => guard (negb (head_seq c)) (obind (wf enc lp L c) (fun L => wf_all enc true L b))
    | ELoop b => wf_all enc true L b
    | EBreak | ECont => guard lp (Some L)
    | EReturn e => guard (negb (head_seq e)) (wf enc lp L e)
    | ESeq es => guard (match es with Nil => false | _ => true end) (wf_all enc lp L es)
    | ELick _ es => guard (lick_parts es) (wf_items enc lp L es)
    | EAt up x k => guard ((if up then negb (memb x L) && owned enc x else memb x L) && key_ok L k) (Some L)
    | EFun _ ps b => guard (nodup ps && (need_all b <=? 255)) (obind (wf_all (L :: enc) false ps b) (fun _ => Some L))
    end
  with wf_all (enc : list (list Z)) (lp : bool) (L : list Z) (es : exps) : option (list Z) :=
    match es with
    | Nil => Some L
    | Cons e es => guard (negb (head_seq e)) (obind (wf enc lp L e) (fun L => wf_all enc lp L es))
    end
  with wf_items (enc : list (list Z)) (lp : bool) (L : list Z) (es : exps) : option (list Z) :=
    match es with
    | Nil => Some L
    | Cons e es => guard (negb (head_seq e) && negb (is_assign e))
                     (obind (wf enc lp L e) (fun L => wf_items enc lp L es))
    end
  with wf_clauses (enc : list (list Z)) (lp : bool) (L : list Z) (k : clauses) : option (list Z) :=
    match k with
    | KEnd => Some L
    | KElse b => wf_all enc lp L b
    | KElsif c b k => guard (negb (head_seq c) && match k with KEnd => true | _ => keeps_all b end)
                        (obind (wf enc lp L c) (fun L =>
                         obind (wf_all enc lp L b) (fun L => wf_clauses enc lp L k)))
    end.
End Wf.

(** ** Captured variables *)
(** the variables an expression assigns (those of nested functions are theirs) *)
Fixpoint sets (e : exp) : list Z :=
  match e with
  | ESet x e => x :: sets e
  | EBin _ a b | EAnd a b | EOr a b => sets a ++ sets b
  | ENot a | EBitn a | EUpSet _ a | EGlob _ a | EPathOf a _ | EPathSet _ a | ESend0 a _ | EReturn a => sets a
  | EList es | ESelfSend _ es | ECallVar _ es | ECallUp _ es | ESeq es | ELoop es | ELick _ es => sets_all es
  | ESend e _ es | ECallVal e es | EWhile e es => sets e ++ sets_all es
  | EIf e b k => sets e ++ sets_all b ++ sets_clauses k
  | _ => []
  end
with sets_all (es : exps) : list Z :=
  match es with Nil => [] | Cons e es => sets e ++ sets_all es end
with sets_clauses (k : clauses) : list Z :=
  match k with
  | KEnd => []
  | KElse b => sets_all b
  | KElsif e b k => sets e ++ sets_all b ++ sets_clauses k
  end.
(** the variables of a function: its parameters, then the others in the order in
    which they are first assigned *)
Definition vars (ps : list Z) (b : exps) : list Z := fold_left (fun l x => add x l) (sets_all b) ps.
(** the variables of enclosing functions that a function with variables [V] needs,
    in the order of the text: those it uses, once each, and those its nested
    functions need (again for each of them) and that are not its own; [U]: those
    already found *)
Fixpoint caps (V U : list Z) (e : exp) : list Z :=
  match e with
  | EUp x => add x U
  | EAt up x _ => if up then add x U else U
  | EUpSet x e => caps V (add x U) e
  | ECallUp x es => caps_all V (add x U) es
  | EFun _ ps b => U ++ filter (fun x => negb (memb x V)) (caps_all (ps ++ sets_all b) [] b)
  | EBin _ a b | EAnd a b | EOr a b => caps V (caps V U a) b
  | ENot a | EBitn a | ESet _ a | EGlob _ a | EPathOf a _ | EPathSet _ a | ESend0 a _ | EReturn a => caps V U a
  | EList es | ESelfSend _ es | ECallVar _ es | ESeq es | ELoop es | ELick _ es => caps_all V U es
  | ESend e _ es | ECallVal e es | EWhile e es => caps_all V (caps V U e) es
  | EIf e b k => caps_clauses V (caps_all V (caps V U e) b) k
  | _ => U
  end
with caps_all (V U : list Z) (es : exps) : list Z :=
  match es with Nil => U | Cons e es => caps_all V (caps V U e) es end
with caps_clauses (V U : list Z) (k : clauses) : list Z :=
  match k with
  | KEnd => U
  | KElse b => caps_all V U b
  | KElsif e b k => caps_clauses V (caps_all V (caps V U e) b) k
  end.
Definition captured (ps : list Z) (b : exps) : list Z := caps_all (ps ++ sets_all b) [] b.

(** ** Functions of a program *)
(** numbered in the order in which they end *)
Fixpoint lab (n : Z) (e : exp) : option Z :=
  match e with
  | EBin _ a b | EAnd a b | EOr a b => obind (lab n a) (fun n => lab n b)
  | ENot a | EBitn a | ESet _ a | EUpSet _ a | EGlob _ a | EPathOf a _ | EPathSet _ a | ESend0 a _ | EReturn a => lab n a
  | EList es | ESelfSend _ es | ECallVar _ es | ECallUp _ es | ESeq es | ELoop es | ELick _ es => lab_all n es
  | ESend e _ es | ECallVal e es | EWhile e es => obind (lab n e) (fun n => lab_all n es)
  | EIf e b k => obind (lab n e) (fun n => obind (lab_all n b) (fun n => lab_clauses n k))
  | EFun l _ b => obind (lab_all n b) (fun m => if m =? l then Some (m + 1) else None)
  | _ => Some n
  end
with lab_all (n : Z) (es : exps) : option Z :=
  match es with Nil => Some n | Cons e es => obind (lab n e) (fun n => lab_all n es) end
with lab_clauses (n : Z) (k : clauses) : option Z :=
  match k with
  | KEnd => Some n
  | KElse b => lab_all n b
  | KElsif e b k => obind (lab n e) (fun n => obind (lab_all n b) (fun n => lab_clauses n k))
  end.
(** the functions in the text: number, parameters, body *)
Fixpoint fns (e : exp) : list (Z * (list Z * exps)) :=
  match e with
  | EBin _ a b | EAnd a b | EOr a b => fns a ++ fns b
  | ENot a | EBitn a | ESet _ a | EUpSet _ a | EGlob _ a | EPathOf a _ | EPathSet _ a | ESend0 a _ | EReturn a => fns a
  | EList es | ESelfSend _ es | ECallVar _ es | ECallUp _ es | ESeq es | ELoop es | ELick _ es => fns_all es
  | ESend e _ es | ECallVal e es | EWhile e es => fns e ++ fns_all es
  | EIf e b k => fns e ++ fns_all b ++ fns_clauses k
  | EFun l ps b => fns_all b ++ [(l, (ps, b))]
  | _ => []
  end
with fns_all (es : exps) : list (Z * (list Z * exps)) :=
  match es with Nil => [] | Cons e es => fns e ++ fns_all es end
with fns_clauses (k : clauses) : list (Z * (list Z * exps)) :=
  match k with
  | KEnd => []
  | KElse b => fns_all b
  | KElsif e b k => fns e ++ fns_all b ++ fns_clauses k
  end.
Fixpoint assoc {A} (l : list (Z * A)) (n : Z) : option A :=
  match l with [] => None | (m, a) :: l => if m =? n then Some a else assoc l n end.
(** what the evaluator below needs to know about the functions of a program *)
Definition funs_of (es : exps) (l : Z) : option (list Z * exps) := assoc (fns_all es) l.
Definition capt_of (es : exps) (l : Z) : list Z :=
  match funs_of es l with Some (ps, b) => captured ps b | None => [] end.

(** ** Meaning *)
(** how an expression ends: with a value (None: the value is not determined, e.g.
    an if without else whose condition is false and that nothing preceded), by
    break, continue or return, or by an error that ends the program *)
Inductive out := Val (v : option Z) | Brk | Cnt | Ret (v : Z) | Abort (v : Z).
Definition env := Z -> option Z.
Definition upd (E : env) (x v : Z) : env := fun y => if y =? x then Some v else E y.

Section Eval.
  Context {W : Type} (H : host W).
  (** the functions of the program: parameters and body; the variables a function
      shares with the enclosing one *)
  Context (funs : Z -> option (list Z * exps)) (capt : Z -> list Z).

  Definition in62 (r : Z) : bool := (- two62 <=? r) && (r <? two62).
  (** integer results outside the integers are doubles *)
  Definition int_op (op : NumModel.arith) (r : Z) (w : W) (a b : Z) : res (W * out) :=
    if in62 r then Ok (w, Val (Some (PN_NUM r)))
    else do x <- h_prim H (P_double op) w [a; b]; Ok (fst x, Val (Some (snd x))).
  (** the words of the machine *)
  Definition word (v : Z) : bool := (0 <=? v) && (v <? two64).
  Definition not_num (w : W) (v : Z) : res (W * out) :=
    do x <- h_prim H P_not_num w [v]; Ok (fst x, Abort (snd x)).
  Definition num_op (p : prim) (w : W) (a b : Z) : res (W * out) :=
    if negb (h_isnum H w a) then not_num w a
    else if negb (h_isnum H w b) then not_num w b
    else do x <- h_prim H p w [a; b]; Ok (fst x, Val (Some (snd x))).
  Definition bool_val (b : bool) : out := Val (Some (if b then PN_TRUE else PN_FALSE)).
  Definition prim_val (p : prim) (w : W) (args : list Z) : res (W * out) :=
    do x <- h_prim H p w args; Ok (fst x, Val (Some (snd x))).
  (** integer division truncates; by zero, and the one quotient that does not fit,
      have no meaning; a shift must be by 0..63 and a left shift must fit; the order
      of two integers of different sign has no meaning here (the VM gets it wrong:
      PropNum.C07_order_mixed_sign_refuted) *)
  Definition bin_op (p : part) (w : W) (a b : Z) : res (W * out) :=
    if negb (word a && word b) then UB else
    let x := PN_INT a in
    let y := PN_INT b in
    let ints := PN_IS_INT a && PN_IS_INT b in
    let ordered (r : bool) := if Bool.eqb (0 <=? x) (0 <=? y) then Ok (w, bool_val r) else UB in
    let exact (ok : bool) (r : Z) := if ok && in62 r then Ok (w, Val (Some (PN_NUM r))) else UB in
    match p with
    | PLUS => if ints then int_op NumModel.Add (x + y) w a b else num_op (P_num O_ADD) w a b
    | MINUS => if ints then int_op NumModel.Sub (x - y) w a b else num_op (P_num O_SUB) w a b
    | TIMES => if ints then int_op NumModel.Mul (x * y) w a b else num_op (P_num O_MULT) w a b
    | DIV => if ints then exact (negb (y =? 0)) (Z.quot x y) else num_op (P_num O_DIV) w a b
    | REM => if ints then exact (negb (y =? 0)) (Z.rem x y) else num_op (P_num O_REM) w a b
    | BITL => if ints then exact ((0 <=? y) && (y <? 64)) (x * 2 ^ y) else num_op (P_num O_BITL) w a b
    | BITR => if ints then exact ((0 <=? y) && (y <? 64)) (x / 2 ^ y) else num_op (P_num O_BITR) w a b
    | LT => if ints then ordered (x <? y) else num_op (P_numcmp O_LT) w a b
    | LTE => if ints then ordered (x <=? y) else num_op (P_numcmp O_LTE) w a b
    | GT => if ints then ordered (y <? x) else num_op (P_numcmp O_GT) w a b
    | GTE => if ints then ordered (y <=? x) else num_op (P_numcmp O_GTE) w a b
    | EQ => if PN_IS_PTR a then prim_val P_eq w [a; b] else Ok (w, bool_val (a =? b))
    | NEQ => if PN_IS_PTR a then prim_val P_neq w [a; b] else Ok (w, bool_val (negb (a =? b)))
    | POW => prim_val P_pow w [a; b]
    | _ => UB
    end.
  Definition truth (v : Z) : bool := negb (v =? PN_NIL) && negb (v =? PN_FALSE).

  (** variables; one that a closure shares holds a reference *)
  Definition getvar (w : W) (E : env) (x : Z) : res (W * Z) :=
    match E x with
    | None => UB
    | Some v => if h_isref H w v then h_prim H P_deref w [v] else Ok (w, v)
    end.
  Definition setvar (w : W) (E : env) (x v : Z) : res (W * env) :=
    match E x with
    | Some slot => if h_isref H w slot then do r <- h_prim H P_setref w [slot; v]; Ok (fst r, E)
                   else Ok (w, upd E x v)
    | None => Ok (w, upd E x v)
    end.
  Definition getup (w : W) (u : env) (x : Z) : res (W * Z) :=
    match u x with None => UB | Some r => h_prim H P_deref w [r] end.
  Definition setup (w : W) (u : env) (x v : Z) : res W :=
    match u x with None => UB | Some r => do y <- h_prim H P_setref w [r; v]; Ok (fst y) end.
  (** the references for the variables shared with a new closure *)
  Fixpoint share (u : env) (w : W) (E : env) (xs : list Z) : res (W * env * list Z) :=
    match xs with
    | [] => Ok (w, E, [])
    | x :: xs =>
        match u x with
        | Some r => do y <- share u w E xs; let '(w, E, rs) := y in Ok (w, E, r :: rs)
        | None =>
            match E x with
            | None => UB
            | Some v =>
                do r <- h_prim H P_ref w [v];
                do y <- share u (fst r) (upd E x (snd r)) xs;
                let '(w, E, rs) := y in Ok (w, E, snd r :: rs)
            end
        end
    end.
  Fixpoint bind_names (xs vs : list Z) (E : env) : env :=
    match xs, vs with
    | x :: xs, v :: vs => fun y => if y =? x then Some v else bind_names xs vs E y
    | _, _ => E
    end.

  Definition result : Type := (W * env * out)%type.
  (** continue with the value / with whatever the last statement left *)
  Definition withv (r : res result) (k : W -> env -> Z -> res result) : res result :=
    match r with
    | Ok (w, E, Val (Some v)) => k w E v
    | Ok (w, E, Val None) => UB
    | r => r
    end.
  Definition witho (r : res result) (k : W -> env -> option Z -> res result) : res result :=
    match r with Ok (w, E, Val ov) => k w E ov | r => r end.
  Definition lift (E : env) (r : res (W * out)) : res result :=
    do x <- r; Ok (fst x, E, snd x).
  Definition liftv (E : env) (r : res (W * Z)) : res result :=
    do x <- r; Ok (fst x, E, Val (Some (snd x))).

  Inductive pending := More (w : W) (E : env) (vs : list Z) | Stop (r : result).

  Fixpoint eval (n d : nat) (self : Z) (u : env) (w : W) (E : env) (cv : option Z) (e : exp)
    {struct n} : res result :=
    match n with
    | O => NoFuel
    | S n =>
      let ev := eval n d self u in
      match e with
      | ELit v => Ok (w, E, Val (Some v))
      | EVar x => liftv E (getvar w E x)
      | EUp x => liftv E (getup w u x)
      | ESelf => Ok (w, E, Val (Some self))
      | EBin p a b =>
          withv (ev w E cv a) (fun w E x => withv (ev w E None b) (fun w E y => lift E (bin_op p w x y)))
      | ENot a => withv (ev w E cv a) (fun w E x => Ok (w, E, bool_val (negb (truth x))))
      | EBitn a => withv (ev w E cv a) (fun w E x =>
                     if PN_IS_INT x then Ok (w, E, Val (Some (PN_NUM (- PN_INT x - 1))))
                     else lift E (prim_val P_bitn w [x]))
      | EAnd a b => withv (ev w E cv a) (fun w E x =>
                      if truth x then ev w E (Some x) b else Ok (w, E, Val (Some x)))
      | EOr a b => withv (ev w E cv a) (fun w E x =>
                      if truth x then Ok (w, E, Val (Some x)) else ev w E (Some x) b)
      | ESet x e => withv (ev w E cv e) (fun w E v =>
                      do r <- setvar w E x v; Ok (fst r, snd r, Val (Some v)))
      | EUpSet x e => withv (ev w E cv e) (fun w E v =>
                      do w <- setup w u x v; Ok (w, E, Val (Some v)))
      | EGlob x e => withv (ev w E None e) (fun w E v =>
                      do r <- h_prim H P_global w [x; v]; Ok (fst r, E, Val (Some v)))
      | EInc x up post =>
          do old <- getvar w E x;
          do r <- bin_op PLUS (fst old) (snd old) (PN_NUM (if up then 1 else -1));
          match snd r with
          | Val (Some v) =>
              do y <- setvar (fst r) E x v;
              Ok (fst y, snd y, Val (Some (if post then snd old else v)))
          | o => Ok (fst r, E, o)
          end
      | EPath m => liftv E (h_prim H P_obj_get w [self; m])
      | EPathOf e m => withv (ev w E cv e) (fun w E v => liftv E (h_prim H P_obj_get w [v; m]))
      (* an assignment to a field has the object as its value *)
      | EPathSet m e => withv (ev w E None e) (fun w E v =>
                          do r <- h_prim H P_obj_set w [self; m; v]; Ok (fst r, E, Val (Some self)))
      | EList es =>
          do t <- h_prim H P_tuple w [];
          evlist n d self u (fst t) E (snd t) es
      | ESend e m es =>
          withv (ev w E cv e) (fun w E v =>
            do cl <- h_prim H P_message w [v; m];
            evcall n d self u (fst cl) E (snd cl) v es)
      (* without parentheses the method is passed one nil *)
      | ESend0 e m =>
          withv (ev w E cv e) (fun w E v =>
            do cl <- h_prim H P_bind w [v; m];
            lift E (call n d (fst cl) (snd cl) v [PN_NIL]))
      | ESelfSend m es =>
          do cl <- h_prim H P_message w [self; m];
          evcall n d self u (fst cl) E (snd cl) self es
      | ESelfSend0 m =>
          do cl <- h_prim H P_bind w [self; m];
          lift E (call n d (fst cl) (snd cl) self [PN_NIL])
      | ECallVar x es => do f <- getvar w E x; evcall n d self u (fst f) E (snd f) self es
      | ECallUp x es => do f <- getup w u x; evcall n d self u (fst f) E (snd f) self es
      | ECallVal e es => withv (ev w E cv e) (fun w E v => evcall n d self u w E v self es)
      | EIf c b k =>
          withv (ev w E None c) (fun w E x =>
            if truth x then evals n d self u w E cv b else evalk n d self u w E cv k)
      | EWhile c b =>
          withv (ev w E None c) (fun w E x =>
            if truth x then
              match evals n d self u w E cv b with
              | Ok (w, E, Val ov) => ev w E ov (EWhile c b)
              | Ok (w, E, Cnt) => ev w E None (EWhile c b)
              | Ok (w, E, Brk) => Ok (w, E, Val None)
              | r => r
              end
            else Ok (w, E, Val cv))
      | ELoop b =>
          match evals n d self u w E cv b with
          | Ok (w, E, Val ov) => ev w E ov (ELoop b)
          | Ok (w, E, Cnt) => ev w E None (ELoop b)
          | Ok (w, E, Brk) => Ok (w, E, Val None)
          | r => r
          end
      | EBreak => Ok (w, E, Brk)
      | ECont => Ok (w, E, Cnt)
      | EReturn e => withv (ev w E cv e) (fun w E v => Ok (w, E, Ret v))
      | ESeq es => evals n d self u w E cv es
      (* a lick: its name, its inner value, its attributes *)
      | ELick m es =>
          do r <- evargs n d self u w E [] es;
          match r with
          | Stop r => Ok r
          | More w E vs => liftv E (h_prim H P_lick w [m; nth 0 vs PN_NIL; nth 1 vs PN_NIL])
          end
      (* the element of a tuple, by a small constant or an integer variable; the value a
         table holds under another constant *)
      | EAt up x k =>
          do t <- (if up then getup w u x else getvar w E x);
          match k with
          | AInt i => liftv E (h_prim H P_tuple_at (fst t) [snd t; PN_NUM i])
          | AVar y =>
              do v <- getvar (fst t) E y;
              if word (snd v) && PN_IS_INT (snd v)
              then liftv E (h_prim H P_tuple_at (fst v) [snd t; snd v]) else UB
          | AKey v => liftv E (h_prim H P_table_at (fst t) [snd t; v])
          end
      | EFun l ps b =>
          do x <- share u w E (capt l);
          let '(w, E, rs) := x in
          liftv E (h_prim H (P_closure l) w rs)
      end
    end
  (** statements *)
  with evals (n d : nat) (self : Z) (u : env) (w : W) (E : env) (cv : option Z) (es : exps)
    {struct n} : res result :=
    match n with
    | O => NoFuel
    | S n => match es with
             | Nil => Ok (w, E, Val cv)
             | Cons e es => witho (eval n d self u w E cv e) (fun w E cv => evals n d self u w E cv es)
             end
    end
  (** the clauses after an if whose condition is false *)
  with evalk (n d : nat) (self : Z) (u : env) (w : W) (E : env) (cv : option Z) (k : clauses)
    {struct n} : res result :=
    match n with
    | O => NoFuel
    | S n => match k with
             | KEnd => Ok (w, E, Val cv)
             | KElse b => evals n d self u w E cv b
             | KElsif c b k =>
                 withv (eval n d self u w E None c) (fun w E x =>
                   if truth x then evals n d self u w E cv b else evalk n d self u w E cv k)
             end
    end
  (** the items of a list, pushed one by one *)
  with evlist (n d : nat) (self : Z) (u : env) (w : W) (E : env) (t : Z) (es : exps)
    {struct n} : res result :=
    match n with
    | O => NoFuel
    | S n => match es with
             | Nil => Ok (w, E, Val (Some t))
             | Cons e es =>
                 withv (eval n d self u w E None e) (fun w E v =>
                   do t <- h_prim H P_push w [t; v]; evlist n d self u (fst t) E (snd t) es)
             end
    end
  (** arguments, left to right *)
  with evargs (n d : nat) (self : Z) (u : env) (w : W) (E : env) (vs : list Z) (es : exps)
    {struct n} : res pending :=
    match n with
    | O => NoFuel
    | S n => match es with
             | Nil => Ok (More w E vs)
             | Cons e es =>
                 match eval n d self u w E None e with
                 | Ok (w, E, Val (Some v)) => evargs n d self u w E (vs ++ [v]) es
                 | Ok (w, E, Val None) => UB
                 | Ok r => Ok (Stop r)
                 | UB => UB
                 | NoFuel => NoFuel
                 end
             end
    end
  with evcall (n d : nat) (self : Z) (u : env) (w : W) (E : env) (cl slf : Z) (es : exps)
    {struct n} : res result :=
    match n with
    | O => NoFuel
    | S n => do r <- evargs n d self u w E [] es;
             match r with
             | Stop r => Ok r
             | More w E vs => lift E (call n d w cl slf vs)
             end
    end
  (** calling the value [cl] with receiver [slf]: a function of the program called
      with as many arguments as it has parameters, or a native function with no
      signature or all its arguments, or a class (a new object, then its
      constructor), or an object with a call method.  Calls with missing
      arguments, and functions of the program called on nil or false, are left out
      here. *)
  with call (n d : nat) (w : W) (cl slf : Z) (vs : list Z) {struct n} : res (W * out) :=
    match n with
    | O => NoFuel
    | S n =>
      let closure w cl slf :=
        match h_kind H w cl with
        | KNative sig arity minargs =>
            if match sig with None => true | Some _ => (arity =? Z.of_nat (length vs)) && (minargs <=? arity) end
            then do r <- h_prim H P_call w (cl :: slf :: vs); Ok (fst r, Val (Some (snd r)))
            else UB
        | KVm pid (Some _) arity minargs ups =>
            match d, funs pid with
            | S d, Some (ps, body) =>
                if (arity =? Z.of_nat (length vs)) && (minargs <=? arity)
                   && (Z.of_nat (length ps) =? Z.of_nat (length vs))
                   && (Z.of_nat (length ups) =? Z.of_nat (length (capt pid)))
                   && truth slf
                then
                  match evals n d slf (bind_names (capt pid) ups (fun _ => None)) w
                          (bind_names ps vs (fun _ => None)) (Some slf) body with
                  | Ok (w, _, Val (Some v)) => Ok (w, Val (Some v))
                  | Ok (w, _, Ret v) => Ok (w, Val (Some v))
                  | Ok (w, _, Abort v) => Ok (w, Abort v)
                  | Ok _ => UB
                  | UB => UB
                  | NoFuel => NoFuel
                  end
                else UB
            | _, _ => UB
            end
        | _ => UB
        end in
      match h_kind H w cl with
      | KVtable =>
          do o <- h_prim H P_object_new w [cl];
          do c <- h_prim H P_ctor (fst o) [cl];
          if truth (snd o) then closure (fst c) (snd c) (snd o) else UB
      | KOther =>
          if truth cl then
            do g <- h_prim H P_get_call w [cl];
            if h_isclosure H (fst g) (snd g)
            then do r <- h_prim H P_call (fst g) (snd g :: cl :: vs); Ok (fst r, Val (Some (snd r)))
            else Ok (fst g, Val (Some (snd g)))
          else UB
      | _ => closure w cl slf
      end
    end.
End Eval.
