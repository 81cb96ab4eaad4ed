(** Model of the decimal text of floating-point numbers: core/number.c 24-27
    (potion_strtod) and 252-263 (potion_num_string), with the C library functions
    sprintf("%.16f") and strtod written out (trusted: they are the functions the C
    standard and glibc describe, exact conversion with round-half-even).

    A finite double is [dm * 2^de] in lowest terms (dm odd, or 0 and 0).  The sign of
    zero, infinities and NaNs are not modelled. *)
From Verif Require Import Base Arr NumModel.

Record dbl := mkDbl { dm : Z; de : Z }.

(** integer nearest to a/b (b > 0), ties to even *)
Definition rhe (a b : Z) : Z :=
  let q := a / b in let r := a mod b in
  if 2 * r <? b then q else if b <? 2 * r then q + 1 else if Z.even q then q else q + 1.
(** 2^e = pw e / pw (-e) *)
Definition pw (e : Z) : Z := 2 ^ (Z.max 0 e).

(** decimal digits of n >= 0, and the low k digits of f with leading zeros *)
Definition dec (n : Z) : list Z := dec_digits (S (Z.to_nat (Z.log2 n))) n [].
Fixpoint padd (k : nat) (f : Z) : list Z :=
  match k with O => [] | S k' => padd k' (f / 10) ++ [48 + f mod 10] end.
(** sprintf("%.16f", d) *)
Definition fmt16f (d : dbl) : list Z :=
  let n := rhe (Z.abs (dm d) * 10 ^ 16 * pw (de d)) (pw (- de d)) in
  (if dm d <? 0 then [45] else []) ++ dec (n / 10 ^ 16) ++ 46 :: padd 16 (n mod 10 ^ 16).
(** number.c 258: while (len > 0 && ints[len-1] == '0') len--, on the reversed text *)
Fixpoint strip0 (l : list Z) : list Z :=
  match l with c :: l' => if c =? 48 then strip0 l' else l | [] => [] end.
(** number.c 252-263 for a double; ints[40] overflows when the text does not fit *)
Definition dbl_string (d : dbl) : res (list Z) :=
  let ints := fmt16f d in
  if zlen ints + 1 >? 40 then UB else
  let len := zlen (strip0 (rev ints)) in
  let len := if znth ints (len - 1) =? 46 then len + 1 else len in
  Ok (ztake len ints).

(** strip factors of two *)
Fixpoint norm (fuel : nat) (m e : Z) : dbl :=
  match fuel with
  | O => mkDbl m e
  | S f => if Z.even m then norm f (m / 2) (e + 1) else mkDbl m e
  end.
(** the double nearest to a/b, a >= 0, b > 0 (53 significant bits, ties to even;
    the exponent range is not limited) *)
Definition rnd53 (a b : Z) : dbl :=
  if a =? 0 then mkDbl 0 0 else
  let e0 := Z.log2 a - Z.log2 b - 53 in
  let e := if a * pw (- e0) / (b * pw e0) <? 2 ^ 53 then e0 else e0 + 1 in
  norm 55 (rhe (a * pw (- e)) (b * pw e)) e.

(** strtod: digits, value and count *)
Definition isdig (c : Z) : bool := (48 <=? c) && (c <=? 57).
Fixpoint pdig (s : list Z) (acc k : Z) : Z * Z * list Z :=
  match s with
  | c :: s' => if isdig c then pdig s' (acc * 10 + (c - 48)) (k + 1) else (acc, k, s)
  | [] => (acc, k, [])
  end.
(** the optional exponent part *)
Definition pexp (s : list Z) : Z :=
  match s with
  | c :: s' =>
    if (c =? 101) || (c =? 69) then
      let (sg, s'') := match s' with
                       | 45 :: t => (-1, t) | 43 :: t => (1, t) | _ => (1, s') end in
      let '(x, k, _) := pdig s'' 0 0 in if k =? 0 then 0 else sg * x
    else 0
  | [] => 0
  end.
(** number.c 24-27: [len] only initialises the variable that strtod overwrites, so the
    text is read as far as it goes.  [s] is the memory from [str] on; the texts met here
    start with a digit or '-', so white space, hexadecimal, inf and nan are left out. *)
Definition strtod (s : list Z) (len : Z) : dbl :=
  let (sg, s) := match s with 45 :: t => (-1, t) | _ => (1, s) end in
  let '(n, _, r) := pdig s 0 0 in
  let '(n, k, r) := match r with 46 :: r' => pdig r' n 0 | _ => (n, 0, r) end in
  let x := pexp r - k in
  let d := rnd53 (n * 10 ^ (Z.max 0 x)) (10 ^ (Z.max 0 (- x))) in
  mkDbl (sg * dm d) (de d).
