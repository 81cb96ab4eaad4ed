(** Model of the recursive-descent parsers that tools/compile.c (the bundled parser
    generator) produces from a grammar: the code emitted for each kind of grammar
    node, and the delayed actions ("thunks").

    - A position in the text is represented by the text that remains.
    - Positions are restored exactly where the generated code restores them, so the
      position of a failed match is never seen again; a failed match therefore
      carries no position here.  G->begin and G->end are not restored by the
      generated code: they are threaded through failures.
    - The thunks emitted by a failed match are dropped (thunkpos is restored).
    - Rules call each other without any measure decreasing, and a repetition may
      loop: [run] is fuelled, None meaning that the fuel does not suffice. *)
From Verif Require Import Base.

Inductive pe {R A : Type} : Type :=
| Chr (c : Z)                   (* 'c' *)
| Str (l : list Z)              (* "..." *)
| Cls (f : Z -> bool)           (* [...] *)
| Dot                           (* . *)
| Seq (a b : pe) | Alt (a b : pe)
| Star (a : pe) | Plus (a : pe) | Opt (a : pe) | Nt (a : pe)
| Rul (r : R)                   (* rule *)
| Var (k : Z) (r : R)           (* v:rule; [k] is the offset of v in the frame *)
| Act (a : A)                   (* { action } *)
| Bg | En.                      (* <  > *)
Arguments pe : clear implicits.

(** yythunk (compile.c 591); an action's text is fixed when it is emitted,
    since the buffer only grows *)
Inductive thunk {A : Type} : Type := TPush (n : Z) | TPop (n : Z) | TSet (k : Z) | TAct (a : A) (text : list Z).
Arguments thunk : clear implicits.

Inductive outcome {A : Type} : Type :=
| Match (rest : list Z) (be : list Z * list Z) (ths : list (thunk A))
| Fail (be : list Z * list Z).
Arguments outcome : clear implicits.

(** compile.c 759-773 yyText: the characters from begin to end *)
Definition text_of (be : list Z * list Z) : list Z :=
  firstn (length (fst be) - length (snd be)) (fst be).

(** compile.c 707-720 yymatchString *)
Fixpoint match_str (l s : list Z) : option (list Z) :=
  match l with
  | [] => Some s
  | c :: l => match s with
              | [] => None
              | x :: s => if x =? c then match_str l s else None
              end
  end.

Section Run.
  Context {R A : Type} (rules : R -> pe R A) (nvars : R -> Z).
  (** compile.c 417-466 Rule_compile_c2: yyPush and yyPop around the body of a rule
      that has variables *)
  Definition framed (r : R) (t : list (thunk A)) : list (thunk A) :=
    if nvars r =? 0 then t else TPush (nvars r) :: t ++ [TPop (nvars r)].
  (** compile.c 200-383 Node_compile_c_ko *)
  Fixpoint run (n : nat) (e : pe R A) (s : list Z) (be : list Z * list Z) : option (outcome A) :=
    match n with
    | O => None
    | S n =>
      match e with
      | Chr c =>
          match s with
          | x :: s' => if x =? c then Some (Match s' be []) else Some (Fail be)
          | [] => Some (Fail be)
          end
      | Str l => match match_str l s with Some s' => Some (Match s' be []) | None => Some (Fail be) end
      | Cls f =>
          match s with
          | x :: s' => if f x then Some (Match s' be []) else Some (Fail be)
          | [] => Some (Fail be)
          end
      | Dot => match s with _ :: s' => Some (Match s' be []) | [] => Some (Fail be) end
      | Seq a b =>
          match run n a s be with
          | Some (Match s1 be1 t1) =>
              match run n b s1 be1 with
              | Some (Match s2 be2 t2) => Some (Match s2 be2 (t1 ++ t2))
              | r => r
              end
          | r => r
          end
      | Alt a b =>
          match run n a s be with
          | Some (Fail be1) => run n b s be1
          | r => r
          end
      | Star a =>
          match run n a s be with
          | Some (Match s1 be1 t1) =>
              match run n (Star a) s1 be1 with
              | Some (Match s2 be2 t2) => Some (Match s2 be2 (t1 ++ t2))
              | r => r
              end
          | Some (Fail be1) => Some (Match s be1 [])
          | None => None
          end
      | Plus a => run n (Seq a (Star a)) s be
      | Opt a =>
          match run n a s be with
          | Some (Fail be1) => Some (Match s be1 [])
          | r => r
          end
      | Nt a =>
          match run n a s be with
          | Some (Match _ be1 _) => Some (Fail be1)
          | Some (Fail be1) => Some (Match s be1 [])
          | None => None
          end
      | Rul r =>
          match run n (rules r) s be with
          | Some (Match s1 be1 t) => Some (Match s1 be1 (framed r t))
          | x => x
          end
      | Var k r =>
          match run n (Rul r) s be with
          | Some (Match s1 be1 t) => Some (Match s1 be1 (t ++ [TSet k]))
          | x => x
          end
      | Act a => Some (Match s be [TAct a (text_of be)])
      | Bg => Some (Match s (s, snd be) [])
      | En => Some (Match s (fst be, s) [])
      end
    end.
End Run.
