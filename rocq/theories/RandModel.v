(** Model of the random generator, core/mt19937ar.c 51-184.  The generator is one
    process-wide state: 624 words, the number of outputs left before the next
    regeneration, the read position and the "seeded" flag.  potion_gc_alloc
    (potion.h 718) draws from the same generator for every allocated object. *)
From Verif Require Import Base Arr WordModel.

(** mt19937ar.c 52-58 *)
Definition MT_N : Z := 624.
Definition MT_M : Z := 397.
Definition MATRIX_A : Z := 2567483615.
Definition UMASK : Z := 2147483648.
Definition LMASK : Z := 2147483647.
Definition MIXBITS (u v : Z) : Z := Z.lor (Z.land u UMASK) (Z.land v LMASK).
Definition TWIST (u v : Z) : Z :=
  Z.lxor (Z.shiftr (MIXBITS u v) 1) (if Z.land v 1 =? 0 then 0 else MATRIX_A).

(** mt19937ar.c 60-63; [r_next] is an index into [state], meaningful once next_state ran *)
Record rng := mkR { r_state : list Z; r_left : Z; r_initf : bool; r_next : Z }.
(** static initial values: zeroed array, left = 1 *)
Definition rng0 : rng := mkR (repeat 0 624) 1 false 0.

(** mt19937ar.c 66-78: unsigned long arithmetic, then & 0xffffffff *)
Fixpoint init_loop (st : list Z) (j : Z) (n : nat) : res (list Z) :=
  match n with
  | O => Ok st
  | S n => do p <- rd st (j - 1);
           let v := u64 (u64 (1812433253 * Z.lxor p (Z.shiftr p 30)) + j) in
           do st <- wr st j (Z.land v 4294967295);
           init_loop st (j + 1) n
  end.
Definition init_genrand (g : rng) (s : Z) : res rng :=
  do st <- wr (r_state g) 0 (Z.land s 4294967295);
  do st <- init_loop st 1 623;
  Ok (mkR st 1 true (r_next g)).

(** mt19937ar.c 120-124: 227 steps from p = state *)
Fixpoint next1 (st : list Z) (i : Z) (n : nat) : res (list Z) :=
  match n with
  | O => Ok st
  | S n => do m <- rd st (i + MT_M); do a <- rd st i; do b <- rd st (i + 1);
           do st <- wr st i (Z.lxor m (TWIST a b)); next1 st (i + 1) n
  end.
(** mt19937ar.c 126-130: 396 steps *)
Fixpoint next2 (st : list Z) (i : Z) (n : nat) : res (list Z) :=
  match n with
  | O => Ok st
  | S n => do m <- rd st (i + MT_M - MT_N); do a <- rd st i; do b <- rd st (i + 1);
           do st <- wr st i (Z.lxor m (TWIST a b)); next2 st (i + 1) n
  end.
(** mt19937ar.c 109-135 *)
Definition next_state (g : rng) : res rng :=
  do g <- (if r_initf g then Ok g else init_genrand g 5489);
  do st <- next1 (r_state g) 0 (Z.to_nat (MT_N - MT_M));
  do st <- next2 st (MT_N - MT_M) (Z.to_nat (MT_M - 1));
  do m <- rd st (MT_N - 1 + MT_M - MT_N); do a <- rd st (MT_N - 1); do b <- rd st 0;
  do st <- wr st (MT_N - 1) (Z.lxor m (TWIST a b));
  Ok (mkR st MT_N (r_initf g) 0).

(** mt19937ar.c 144-148: on unsigned long (64 bits) *)
Definition temper (y : Z) : Z :=
  let y := Z.lxor y (Z.shiftr y 11) in
  let y := Z.lxor y (Z.land (u64 (Z.shiftl y 7)) 2636928640) in
  let y := Z.lxor y (Z.land (u64 (Z.shiftl y 15)) 4022730752) in
  Z.lxor y (Z.shiftr y 18).
(** mt19937ar.c 138-151 *)
Definition rand_int (g : rng) : res (rng * Z) :=
  let left := r_left g - 1 in
  do g <- (if left =? 0 then next_state (mkR (r_state g) left (r_initf g) (r_next g))
           else Ok (mkR (r_state g) left (r_initf g) (r_next g)));
  do y <- rd (r_state g) (r_next g);
  Ok (mkR (r_state g) (r_left g) (r_initf g) (r_next g + 1), temper y).
(** mt19937ar.c 154-157: the double (a * 2^26 + b) / 2^53 as its numerator *)
Definition rand_double (g : rng) : res (rng * Z) :=
  do (g, a) <- rand_int g; do (g, b) <- rand_int g;
  Ok (g, Z.shiftr a 5 * 67108864 + Z.shiftr b 6).
(** mt19937ar.c 163-166 *)
Definition srand (g : rng) (seed : Z) : res rng := init_genrand g (u64 (PN_INT seed)).
(** mt19937ar.c 173-175 *)
Definition potion_rand (g : rng) : res (rng * Z) := do (g, y) <- rand_int g; Ok (g, PN_NUM y).
(** mt19937ar.c 182-184: PN_NUM casts the double to unsigned long (truncation) *)
Definition num_rand (g : rng) : res (rng * Z) :=
  do (g, d) <- rand_double g; Ok (g, PN_NUM (d / 2 ^ 53)).

(** drawing n numbers in a row *)
Fixpoint draws (g : rng) (n : nat) : res (rng * list Z) :=
  match n with
  | O => Ok (g, [])
  | S n => do (g, y) <- rand_int g; do (g, l) <- draws g n; Ok (g, y :: l)
  end.
