(** Shared vocabulary of the model: outcomes, machine words, C loops.

    Nothing in this file is specific to potion; it fixes how C is read:
    - [res A] is the outcome of running a piece of C: a value, undefined
      behaviour, or "fuel exhausted" (only used by loops whose termination is
      not syntactically evident);
    - a C [unsigned long] is a [Z] reduced by [u64], a C [long] a [Z] reduced by
      [s64] (two's complement, x86-64). *)
From Coq Require Export ZArith List Bool Lia.
From Coq Require Import ZifyBool.
Export ListNotations.
Open Scope Z_scope.

(** Outcome of a C computation.  [UB] is undefined behaviour (an out-of-bounds
    access, a division by zero, signed overflow, ...). *)
Inductive res (A : Type) : Type :=
| Ok (a : A)
| UB
| NoFuel.
Arguments Ok {A} a.
Arguments UB {A}.
Arguments NoFuel {A}.

Definition bind {A B} (r : res A) (f : A -> res B) : res B :=
  match r with Ok a => f a | UB => UB | NoFuel => NoFuel end.

Declare Scope res_scope.
Delimit Scope res_scope with res.
Notation "'do' x <- r ; k" := (bind r (fun x => k))
  (at level 200, x pattern, r at level 100, k at level 200, right associativity) : res_scope.
Open Scope res_scope.

Definition two32 : Z := 4294967296.
Definition two62 : Z := 4611686018427387904.
Definition two63 : Z := 9223372036854775808.
Definition two64 : Z := 18446744073709551616.

(** conversion to [unsigned long] / [unsigned int] *)
Definition u64 (x : Z) : Z := x mod two64.
Definition u32 (x : Z) : Z := x mod two32.
(** conversion to [long]: the representative in [-2^63, 2^63) *)
Definition s64 (x : Z) : Z := (x + two63) mod two64 - two63.
(** conversion to [int] *)
Definition s32 (x : Z) : Z := (x + 2147483648) mod two32 - 2147483648.

(** [long] arithmetic: overflow of a signed operation is undefined. *)
Definition in_long (x : Z) : bool := (- two63 <=? x) && (x <? two63).
Definition slong (x : Z) : res Z := if in_long x then Ok x else UB.

(** A C [while (cond(s)) s = body(s);] run with explicit fuel. *)
Fixpoint cwhile {S} (fuel : nat) (cond : S -> bool) (body : S -> res S) (s : S) : res S :=
  match fuel with
  | O => NoFuel
  | S fuel' => if cond s then do s' <- body s; cwhile fuel' cond body s' else Ok s
  end.

(** "the loop terminates with result r": for all large enough fuels *)
Definition terminates {A} (run : nat -> res A) (r : res A) : Prop :=
  exists n0, forall n, (n0 <= n)%nat -> run n = r.

(** integers from a upwards, n of them *)
Fixpoint zseq (a : Z) (n : nat) : list Z :=
  match n with O => [] | S n' => a :: zseq (a + 1) n' end.

(** keep arithmetic folded under [cbn]/[simpl] *)
Global Arguments Z.add : simpl never.
Global Arguments Z.sub : simpl never.
Global Arguments Z.mul : simpl never.
Global Arguments Z.div : simpl never.
Global Arguments Z.modulo : simpl never.
Global Arguments Z.pow : simpl never.
Global Arguments Z.shiftl : simpl never.
Global Arguments Z.shiftr : simpl never.
Global Arguments Z.land : simpl never.
Global Arguments Z.lor : simpl never.
Global Arguments Z.lxor : simpl never.
Global Arguments Z.of_nat : simpl never.
Global Arguments Z.to_nat : simpl never.
