(** Model of arithmetic with floating-point numbers: core/number.c and the operators
    of core/vm.c on operands of which at least one is a double, or whose integer
    result does not fit.

    A double is an IEEE 754 binary64 datum (Flocq's [binary_float 53 1024]: the C type
    on x86-64, round to nearest even; the payload of a NaN is not modelled).  The C
    operators + - * / and sqrt are those of IEEE 754 (C11 annex F), trusted.  A
    number object is immutable, so it is represented by its value; where the code
    looks at the address instead, the model takes the word. *)
From Verif Require Import Base WordModel NumModel.
From Flocq Require Import Core BinarySingleNaN.
Local Open Scope Z_scope.

Definition f64 : Set := binary_float 53 1024.
Global Instance prec_gt : Prec_gt_0 53 := eq_refl.
Global Instance prec_lt : Prec_lt_emax 53 1024 := eq_refl.

(** a number: an immediate integer (its word is PN_NUM i), or a double object *)
Inductive num := NI (i : Z) | ND (d : f64).

(** (double)i for a long *)
Definition of_long (i : Z) : f64 := binary_normalize 53 1024 prec_gt prec_lt mode_NE i 0 false.
(** potion.h 215 PN_DBL *)
Definition PN_DBL (n : num) : f64 := match n with NI i => of_long i | ND d => d end.
(** the C operators on doubles *)
Definition fop (op : arith) (x y : f64) : f64 :=
  match op with
  | Add => Bplus mode_NE x y
  | Sub => Bminus mode_NE x y
  | Mul => Bmult mode_NE x y
  | Div => Bdiv mode_NE x y
  | _ => B754_zero false
  end.
(** conversion of a double to int and to unsigned long: undefined when the integral
    part does not fit (C11 6.3.1.4) *)
Definition to_int (d : f64) : res Z :=
  if is_finite d && (- 2 ^ 31 <=? Btrunc d) && (Btrunc d <? 2 ^ 31) then Ok (Btrunc d) else UB.
Definition to_ulong (d : f64) (t : Z) : res Z :=
  if is_finite d && (0 <=? t) && (t <? 2 ^ 64) then Ok t else UB.
(** the integer floor(d) of a finite double *)
Definition floorZ (d : f64) : Z :=
  match d with
  | B754_finite s m e _ => let m := if s then Z.neg m else Z.pos m in
                           if 0 <=? e then m * 2 ^ e else m / 2 ^ (- e)
  | _ => 0
  end.

(** number.c 47-56, 66-133: the Number methods + - * / % << >> (potion_num_add ..
    potion_num_bitr) *)
Definition num_send (op : arith) (a b : num) : res num :=
  match a, b with
  | NI i, NI j => do w <- num_math op (PN_NUM i) (PN_NUM j); Ok (NI (PN_INT w))
  | _, _ =>
      let x := PN_DBL a in let y := PN_DBL b in
      match op with
      | Rem => do z <- to_int (Bdiv mode_NE x y);
               Ok (ND (Bminus mode_NE x (Bmult mode_NE y (of_long z))))
      | _ => Ok (ND (fop op x y))
      end
  end.
(** vm.c 369-397, 748-752, 781-782: the operators; with a double the message is sent
    (objmodel.c 444-477) *)
Definition vm_num (op : arith) (a b : num) : res num :=
  match a, b with
  | NI i, NI j =>
      match op with
      | Add | Sub | Mul =>
          match vm_math3 op (PN_NUM i) (PN_NUM j) with
          | NWord w => Ok (NI (PN_INT w))
          | NDouble op x y => Ok (ND (fop op (of_long x) (of_long y)))
          end
      | _ => do w <- vm_math2 op (PN_NUM i) (PN_NUM j); Ok (NI (PN_INT w))
      end
  | _, _ => num_send op a b
  end.
(** vm.c 405-412 PN_VM_NUMCMP *)
Definition vm_lt (c : cmpop) (a b : num) : Z :=
  match a, b with
  | NI i, NI j => vm_numcmp c (PN_NUM i) (PN_NUM j)
  | _, _ => let x := PN_DBL a in let y := PN_DBL b in
            PN_BOOL (match c with Lt => Bltb x y | Lte => Bleb x y | Gt => Bltb y x | Gte => Bleb y x end)
  end.
(** vm.c 418-428 potion_vm_eq and 430-440 potion_vm_neq: an integer word is odd and the
    address of a double is not, so they are never equal *)
Definition vm_eqn (a b : num) : Z :=
  PN_BOOL (match a, b with ND x, ND y => Beqb x y | NI i, NI j => PN_NUM i =? PN_NUM j | _, _ => false end).
Definition vm_neqn (a b : num) : Z :=
  PN_BOOL (negb (match a, b with ND x, ND y => Beqb x y | NI i, NI j => PN_NUM i =? PN_NUM j | _, _ => false end)).
(** number.c 359-370 potion_num_abs, 380-387 potion_dbl_abs *)
Definition num_absn (a : num) : num :=
  match a with
  | NI i => NI (PN_INT (num_abs (PN_NUM i)))
  | ND d => ND (if Bltb d (B754_zero false) then Bopp d else d)
  end.
(** number.c 43-45 potion_num_sqrt *)
Definition num_sqrt (a : num) : num := ND (Bsqrt mode_NE (PN_DBL a)).
(** number.c 200-205 potion_num_double *)
Definition num_double (a : num) : num := ND (PN_DBL a).
(** number.c 209-214 potion_num_integer: PN_NUM(floor(d)), and PN_NUM (potion.h 213)
    converts its argument to unsigned long *)
Definition num_integer (a : num) : res Z :=
  match a with
  | NI i => Ok (PN_NUM i)
  | ND d => do z <- to_ulong d (floorZ d); Ok (PN_NUM z)
  end.
(** number.c 414-421 potion_dbl_cmp, and 396-402 for an argument that is a double *)
Definition dbl_cmp (x y : f64) : Z :=
  if Bltb x y then PN_NUM (-1) else if Beqb x y then PN_ZERO else PN_NUM 1.

Section Pow.
(** the function pow of the C library *)
Variable cpow : f64 -> f64 -> f64.
(** vm.c 753-754 OP_POW, on the words of the operands *)
Definition vm_pow (wa wb : Z) : res Z :=
  do z <- to_int (cpow (of_long (PN_INT wa)) (of_long (PN_INT wb))); Ok (PN_NUM z).
(** number.c 33-39 potion_num_pow: fabs(z) < INT_MAX *)
Definition num_pow (a b : num) : res num :=
  let z := cpow (PN_DBL a) (PN_DBL b) in
  match a, b with
  | NI _, NI _ => if Bltb (Babs z) (of_long (2 ^ 31 - 1)) then do i <- to_int z; Ok (NI (PN_INT (PN_NUM i)))
                  else Ok (ND z)
  | _, _ => Ok (ND z)
  end.
End Pow.
