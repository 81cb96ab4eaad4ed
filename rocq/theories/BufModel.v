(** Model of the parsers that tools/compile.c generates, at the level of their buffer:
    G->buf, G->pos, G->limit, G->begin, G->end, the thunk array and the input that
    YY_INPUT (core/syntax.y 28-39) delivers piece by piece.  PegModel abstracts from all
    this; PropInput relates the two.

    The buffer is an array of [buflen] characters.  Growing the thunk array (compile.c
    745-757 yyDo) and the text buffer (759-773 yyText) never fails here (memory is not
    exhausted); what lies behind thunkpos is never read and not represented. *)
From Verif Require Import Base Arr PegModel.

(** yythunk (compile.c 591): an action with the begin and end of its text *)
Inductive bth {A : Type} := BPush (n : Z) | BPop (n : Z) | BSet (k : Z) | BAct (a : A) (b e : Z).
Arguments bth : clear implicits.
(** struct _GREG (compile.c 594-617), and P->yypos *)
Record greg {A : Type} := mkG { g_buf : list Z; g_lim : Z; g_pos : Z; g_beg : Z; g_end : Z; g_ths : list (bth A); g_yy : Z }.
Arguments greg : clear implicits.
Arguments mkG {A}. Arguments g_buf {A}. Arguments g_lim {A}. Arguments g_pos {A}. Arguments g_beg {A}. Arguments g_end {A}. Arguments g_ths {A}. Arguments g_yy {A}.
(** return 1, return 0, undefined behaviour, fuel used up *)
Inductive bres {A : Type} := BMatch (g : greg A) | BFail (g : greg A) | BUB | BMore.
Arguments bres : clear implicits.

Section Buf.
  Context {R A : Type} (rules : R -> pe R A) (nvars : R -> Z).
  (** P->input; [slack]: may the byte behind the buffer be written? *)
  Context (input : list Z) (slack : bool).

  Definition set_pos (p : Z) (g : greg A) : greg A := mkG (g_buf g) (g_lim g) p (g_beg g) (g_end g) (g_ths g) (g_yy g).
  Definition set_beg (p : Z) (g : greg A) : greg A := mkG (g_buf g) (g_lim g) (g_pos g) p (g_end g) (g_ths g) (g_yy g).
  Definition set_end (p : Z) (g : greg A) : greg A := mkG (g_buf g) (g_lim g) (g_pos g) (g_beg g) p (g_ths g) (g_yy g).
  Definition set_ths (l : list (bth A)) (g : greg A) : greg A := mkG (g_buf g) (g_lim g) (g_pos g) (g_beg g) (g_end g) l (g_yy g).
  Definition adv (g : greg A) : greg A := set_pos (g_pos g + 1) g.
  (** compile.c 745-757 yyDo *)
  Definition yydo (t : bth A) (g : greg A) : greg A := set_ths (g_ths g ++ [t]) g.
  (** compile.c 194, 197 save, restore: G->pos and G->thunkpos *)
  Definition restore (from g : greg A) : greg A :=
    set_ths (firstn (length (g_ths from)) (g_ths g)) (set_pos (g_pos from) g).

  (** compile.c 622-625: while (G->buflen - G->pos < 512) G->buflen *= 2; int arithmetic *)
  Fixpoint grow (n : nat) (pos : Z) (buf : list Z) : option (list Z) :=
    if zlen buf - pos <? 512 then
      match n with
      | O => None
      | S n => if 1073741824 <=? zlen buf then None else grow n pos (buf ++ repeat 0 (length buf))
      end
    else Some buf.
  (** memcpy of [n] characters to position [p] *)
  Definition copy_to (buf : list Z) (p : Z) (l : list Z) : list Z :=
    firstn (Z.to_nat p) buf ++ l ++ skipn (Z.to_nat (p + zlen l)) buf.
  (** compile.c 619-630 yyrefill with YY_INPUT; the input string ends in a NUL, which is
      copied too *)
  Definition yyrefill (g : greg A) : bres A :=
    match grow 31 (g_pos g) (g_buf g) with
    | None => BUB
    | Some buf =>
        let max := zlen buf - g_pos g in
        if g_yy g <? zlen input then
          let result := if zlen input <? g_yy g + max then zlen input - g_yy g else max in
          let src := skipn (Z.to_nat (g_yy g)) (input ++ [0]) in
          let g' n := mkG (copy_to buf (g_pos g) (firstn (Z.to_nat n) src)) (g_lim g + result) (g_pos g) (g_beg g) (g_end g)
                          (g_ths g) (g_yy g + max) in
          if max <? result + 1 then (if slack then BMatch (g' result) else BUB)
          else BMatch (g' (result + 1))
        else BFail (mkG buf (g_lim g) (g_pos g) (g_beg g) (g_end g) (g_ths g) (g_yy g))
    end.
  (** if (G->pos >= G->limit && !yyrefill(G)) return 0; *)
  Definition avail (g : greg A) : bres A := if g_lim g <=? g_pos g then yyrefill g else BMatch g.
  Definition cur (g : greg A) : Z := znth (g_buf g) (g_pos g).

  (** compile.c 707-720 yymatchString: at the end of the input the position is not restored *)
  Fixpoint matchString (sav : Z) (l : list Z) (g : greg A) : bres A :=
    match l with
    | [] => BMatch g
    | c :: l =>
        match avail g with
        | BMatch g => if cur g =? c then matchString sav l (adv g) else BFail (set_pos sav g)
        | r => r
        end
    end.

  (** compile.c 200-383 Node_compile_c_ko, 417-466 Rule_compile_c2; "goto ko" is BFail.
      A rule restores on failure (a rule whose body is a repetition or an option never fails) *)
  Fixpoint runb (n : nat) (e : pe R A) (g : greg A) : bres A :=
    match n with
    | O => BMore
    | S n =>
      match e with
      | Chr c => match avail g with BMatch g => if cur g =? c then BMatch (adv g) else BFail g | r => r end
      | Str l => matchString (g_pos g) l g
      | Cls f => match avail g with BMatch g => if f (cur g) then BMatch (adv g) else BFail g | r => r end
      | Dot => match avail g with BMatch g => BMatch (adv g) | r => r end
      | Seq a b => match runb n a g with BMatch g => runb n b g | r => r end
      | Alt a b => match runb n a g with BFail g' => runb n b (restore g g') | r => r end
      | Star a =>
          match runb n a g with
          | BMatch g => runb n (Star a) g
          | BFail g' => BMatch (restore g g')
          | r => r
          end
      | Plus a => runb n (Seq a (Star a)) g
      | Opt a => match runb n a g with BFail g' => BMatch (restore g g') | r => r end
      | Nt a => match runb n a g with BMatch g' => BFail g' | BFail g' => BMatch (restore g g') | r => r end
      | Rul r =>
          let g1 := if nvars r =? 0 then g else yydo (BPush (nvars r)) g in
          match runb n (rules r) g1 with
          | BMatch g' => BMatch (if nvars r =? 0 then g' else yydo (BPop (nvars r)) g')
          | BFail g' => BFail (restore g g')
          | r => r
          end
      | Var k r => match runb n (Rul r) g with BMatch g' => BMatch (yydo (BSet k) g') | r => r end
      | Act a => BMatch (yydo (BAct a (g_beg g) (g_end g)) g)
      | Bg => BMatch (set_beg (g_pos g) g)
      | En => BMatch (set_end (g_pos g) g)
      end
    end.
  (** compile.c 850-872 yyparse_from: YY_BUFFER_START_SIZE is 16384 *)
  Definition start : greg A := mkG (repeat 0 16384) 0 0 0 0 [] 0.
  (** compile.c 759-773 yyText *)
  Definition yytext (buf : list Z) (b e : Z) : list Z := firstn (Z.to_nat (e - b)) (skipn (Z.to_nat b) buf).
End Buf.
