(** Model of integer arithmetic: the VM operators (core/vm.c) and the Number
    methods (core/number.c), counting loops, and integer <-> text conversion.
    Doubles are opaque: an operation that leaves the integers returns a
    [NDouble] that only remembers which floating point operation was asked for. *)
From Verif Require Import Base WordModel.

Inductive arith := Add | Sub | Mul | Div | Rem | Shl | Shr.

(** A Number value: an immediate word, or a freshly allocated double computed
    from the two operands (converted to double) by the C operator. *)
Inductive nval :=
| NWord (w : Z)
| NDouble (op : arith) (x y : Z).

Definition zop (op : arith) (x y : Z) : Z :=
  match op with Add => x + y | Sub => x - y | _ => x * y end.

(** vm.c:384-397 PN_VM_MATH3 (gcc >= 5 / clang branch), both operands integers:
    __builtin_s{add,sub,mul}l_overflow, then the 63-bit range check against
    PN_INT(LONG_MAX) = 2^62-1 and PN_INT(LONG_MIN) = -2^62. *)
Definition vm_math3 (op : arith) (ra rb : Z) : nval :=
  let x := PN_INT ra in
  let y := PN_INT rb in
  let exact := zop op x y in
  let val := s64 exact in
  if negb (in_long exact) || (PN_INT (two63 - 1) <? val) || (val <? PN_INT (u64 (- two63)))
  then NDouble op x y
  else NWord (PN_NUM val).

(** C integer operators on [long] (number.c:47-56 PN_NUM_MATH / PN_INT_MATH,
    vm.c:369-376 PN_VM_MATH2): signed overflow, division by zero and
    out-of-range shift counts are undefined.  Left shift of a negative number is
    read as gcc/clang define it (two's complement). *)
Definition c_long_op (op : arith) (x y : Z) : res Z :=
  match op with
  | Add => slong (x + y)
  | Sub => slong (x - y)
  | Mul => slong (x * y)
  | Div => if y =? 0 then UB else slong (Z.quot x y)
  | Rem => if y =? 0 then UB else if (x =? - two63) && (y =? -1) then UB else Ok (Z.rem x y)
  | Shl => if (0 <=? y) && (y <? 64) then Ok (s64 (x * 2 ^ y)) else UB
  | Shr => if (0 <=? y) && (y <? 64) then Ok (Z.shiftr x y) else UB
  end.

(** number.c:66-104,119-133 (num_add .. num_bitr) and number.c:139-183 (int_add ..
    int_bitr) on two integers: PN_NUM(PN_INT(self) op PN_INT(num)) *)
Definition num_math (op : arith) (self num : Z) : res Z :=
  do r <- c_long_op op (PN_INT self) (PN_INT num); Ok (PN_NUM r).

(** vm.c:751-752,781-782 OP_DIV OP_REM OP_BITL OP_BITR through PN_VM_MATH2 *)
Definition vm_math2 (op : arith) (ra rb : Z) : res Z := num_math op ra rb.

(** number.c:109-113,165-167 and vm.c:779 : ~x on long *)
Definition num_bitn (self : Z) : Z := PN_NUM (Z.lnot (PN_INT self)).

(** number.c:359-376 abs of an integer: PN_NUM(labs(PN_INT(self))) *)
Definition num_abs (self : Z) : Z := PN_NUM (Z.abs (PN_INT self)).

(** vm.c:405-412 PN_VM_NUMCMP on two integers: compares the raw PN words, which
    are unsigned *)
Inductive cmpop := Lt | Lte | Gt | Gte.
Definition vm_numcmp (c : cmpop) (ra rb : Z) : Z :=
  PN_BOOL (match c with
           | Lt => ra <? rb | Lte => ra <=? rb | Gt => rb <? ra | Gte => rb <=? ra end).

(** vm.c:760 OP_CMP *)
Definition vm_cmp (ra rb : Z) : Z := PN_NUM (PN_INT rb - PN_INT ra).

(** number.c:396-407,430-437 the "cmp" method on two integers *)
Definition num_cmp (self n : Z) : Z :=
  let n1 := PN_INT self in let n2 := PN_INT n in
  if n1 <? n2 then PN_NUM (-1) else if n1 =? n2 then PN_ZERO else PN_NUM 1.

(** Counting loops.  The block is an arbitrary state transformer called with the
    boxed index (non-local exits are not modelled). *)
Section Loops.
  Context {S : Type} (blk : S -> Z -> S).

  (** number.c:282-291 potion_int_times *)
  Definition int_times (fuel : nat) (self : Z) (s : S) : res (S * Z) :=
    let j := PN_INT self in
    do r <- cwhile fuel (fun p => snd p <? j)
                   (fun p => do i' <- slong (snd p + 1); Ok (blk (fst p) (PN_NUM (snd p)), i'))
                   (s, 0);
    Ok (fst r, PN_NUM (snd r)).

  (** number.c:299-309 potion_int_to *)
  Definition int_to (fuel : nat) (self end_ : Z) (s : S) : res (S * Z) :=
    let j := PN_INT self in
    let k := PN_INT end_ in
    let d := if k <? j then -1 else 1 in
    do lim <- slong (k + d);
    do r <- cwhile fuel (fun p => negb (snd p =? lim))
                   (fun p => do i' <- slong (snd p + d); Ok (blk (fst p) (PN_NUM (snd p)), i'))
                   (s, j);
    do diff <- slong (snd r - j);
    do a <- slong (Z.abs diff);
    Ok (fst r, PN_NUM a).

  (** number.c:317-328 potion_int_step *)
  Definition int_step (fuel : nat) (self end_ step : Z) (s : S) : res (S * Z) :=
    let j := PN_INT end_ in
    let k := PN_INT step in
    do r <- cwhile fuel (fun p => snd p <=? j)
                   (fun p => do i' <- slong (snd p + k); Ok (blk (fst p) (PN_NUM (snd p)), i'))
                   (s, PN_INT self);
    do diff <- slong (snd r - j);
    do a <- slong (Z.abs diff);
    do q <- c_long_op Div a k;
    Ok (fst r, PN_NUM q).
End Loops.

(** internal.h:51-67 PN_ATOI(X,N,B): the loop over at most N characters; reading a
    character beyond the list (the terminating NUL included in the list by the
    caller) is undefined; Ai is a long. *)
Definition digit_of (c : Z) : option Z :=
  if (48 <=? c) && (c <=? 57) then Some (c - 48)
  else if (65 <=? c) && (c <=? 70) then Some (c - 65 + 10)
  else if (97 <=? c) && (c <=? 102) then Some (c - 97 + 10)
  else None.
Fixpoint atoi_loop (s : list Z) (n : nat) (B : Z) (Ai : Z) {struct n} : res Z :=
  match n with
  | O => Ok Ai
  | S n' => match s with
            | [] => UB
            | c :: s' => match digit_of c with
                         | Some d => do m <- slong (Ai * B);
                                     do Ai' <- slong (m + d);
                                     atoi_loop s' n' B Ai'
                         | None => Ok Ai
                         end
            end
  end.
(** N = 0 with a leading '-' would wrap Al to 2^64-1: modelled as undefined *)
Definition PN_ATOI (s : list Z) (n : nat) (B : Z) : res Z :=
  match s with
  | [] => UB
  | c :: s' =>
      if c =? 45 then match n with
                      | O => UB
                      | S n' => do a <- atoi_loop s' n' B 0; slong (- a)
                      end
      else atoi_loop s n B 0
  end.

(** Result of a text -> number conversion: an integer word, or "handed to
    strtod" (a double) *)
Inductive numtext := TInt (w : Z) | TDouble.

(** string.c:112-129 potion_str_number; chars are the string's bytes, the
    terminating NUL is added here (PN_STR_PTR is NUL terminated).
    char is signed: comparing with '0'/'9' is the same for the signed reading. *)
Fixpoint span_digits (s : list Z) : nat :=
  match s with
  | c :: s' => if (c <? 48) || (57 <? c) then O else S (span_digits s')
  | [] => O
  end.
Definition str_number (chars : list Z) : res numtext :=
  match chars with
  | [] => Ok (TInt PN_ZERO)
  | c :: rest =>
      let sign := if c =? 45 then -1 else 1 in
      let body := if (c =? 45) || (c =? 43) then rest else chars in
      let i := span_digits body in
      if (Nat.ltb i 10) && (Nat.eqb i (length body))
      then do a <- PN_ATOI (body ++ [0]) i 10; do r <- slong (sign * a); Ok (TInt (PN_NUM r))
      else Ok TDouble
  end.

(** syntax.y:197-202,265 a decimal integer literal (text matched by the dec rule
    without fraction or exponent) and a hex literal (digits after 0x): the whole
    text goes through PN_ATOI; the parser buffer continues after the text. *)
Definition lit_dec (text : list Z) : res Z := do a <- PN_ATOI (text ++ [0]) (length text) 10; Ok (PN_NUM a).
Definition lit_hex (text : list Z) : res Z := do a <- PN_ATOI (text ++ [0]) (length text) 16; Ok (PN_NUM a).

(** number.c:187-191, 252-256 sprintf("%ld"): C library; written here as the
    standard decimal notation (trusted). *)
Fixpoint dec_digits (fuel : nat) (n : Z) (acc : list Z) : list Z :=
  match fuel with
  | O => acc
  | S f => let acc' := (48 + n mod 10) :: acc in
           if n / 10 =? 0 then acc' else dec_digits f (n / 10) acc'
  end.
Definition sprintf_ld (n : Z) : list Z :=
  if n <? 0 then 45 :: dec_digits 20 (- n) [] else dec_digits 20 n [].
Definition int_string (self : Z) : list Z := sprintf_ld (PN_INT self).
