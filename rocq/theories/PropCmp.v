(** C62: what "cmp" answers, for every receiver and argument.
    C63: what "string" and "join" answer, and that the string of plain data is read back. *)
From Verif Require Import Base Arr WordModel WordProofs NumModel NumProofs CompileModel SrcSpec CompileEq TextSpec SyntaxModel PropParse CmpModel.
From Coq Require Import ZifyBool.
Ltac Zify.zify_post_hook ::= Z.div_mod_to_equations.

(** ** Specification *)
(** an answer a program can see: an integer, nil, the end of the process, or none ever *)
Inductive answer := Int (z : Z) | Nil_ | Exits | Never.
Definition answers (run : nat -> cres) (a : answer) : Prop :=
  match a with
  | Int z => exists n, forall m, (n <= m)%nat -> run m = CRet (PN_NUM z)
  | Nil_ => exists n, forall m, (n <= m)%nat -> run m = CRet PN_NIL
  | Exits => exists n, forall m, (n <= m)%nat -> run m = CFatal
  | Never => forall m, run m = CMore
  end.
(** order of byte strings: the first difference decides, a proper prefix is smaller *)
Fixpoint lex (a b : list Z) : Z :=
  match a, b with
  | [], [] => 0
  | [], _ => -1
  | _, [] => 1
  | x :: a, y :: b => if x <? y then -1 else if y <? x then 1 else lex a b
  end.
(** what the C library promises about strcmp (an int with the sign of the order) *)
Definition strcmp_ok (strcmp : list Z -> list Z -> Z) : Prop :=
  forall a b, Z.sgn (strcmp a b) = lex a b /\ -2147483648 <= strcmp a b < 2147483648.

Section Spec.
  Context (strcmp : list Z -> list Z -> Z) (asked : pv -> Z) (other_string : pv -> list Z).
  Notation vstring := (vstring other_string).
  (** lengths of two lists that are equal as far as looked at *)
  Definition by_length (n m : Z) : answer := if n =? m then Nil_ else if n <? m then Int (-1) else Int 0.
  Fixpoint order (a v : pv) : answer :=
    match a, v with
    | PInt i, PInt j => Int (Z.sgn (i - j))
    | PInt i, _ => Int (Z.sgn (i - asked v))
    | PStr l, PStr l' => Int (strcmp l l')
    | PStr l, _ => Int (strcmp l (vstring v))
    | PBool false, PBool true => Int (-1)
    | PBool true, PBool false => Int 0
    | PBool _, PBool _ => Nil_
    | PBool b, PInt j => Int (Z.sgn ((if b then 1 else 0) - j))
    | PBool _, _ => Int 0
    | PNil, PNil | PNil, PBool false => Nil_
    | PNil, PInt j => Int (Z.sgn (- j))
    | PNil, PStr l => Int (strcmp [] l)
    | PNil, _ => Int (-1)
    | PTup l, PTup l' =>
        match l, l' with
        | x :: _, y :: _ => match order x y with Int 0 => by_length (zlen l) (zlen l') | r => r end
        | _, _ => by_length (zlen l) (zlen l')
        end
    | PTup _, PBool true => Int 0
    | PTup _, PBool false | PTup _, PNil => Int (-1)
    | PTup _, _ => Exits
    | PLobby, PLobby => Int 0
    | PLobby, _ => Int 1
    | PLick _ _ _, _ | POther _, _ => Never
    end.
End Spec.

(** ** Proofs *)
Section PvInd.
  Context (Q : pv -> Prop) (H1 : Q PNil) (H2 : forall b, Q (PBool b)) (H3 : forall n, Q (PInt n)) (H4 : forall l, Q (PStr l))
    (H5 : forall l, Forall Q l -> Q (PTup l)) (H6 : forall n i a, Q n -> Q i -> Q a -> Q (PLick n i a)) (H7 : Q PLobby) (H8 : forall k, Q (POther k)).
  Fixpoint pv_ind2 (v : pv) : Q v :=
    match v with
    | PNil => H1 | PBool b => H2 b | PInt n => H3 n | PStr l => H4 l
    | PTup l => H5 l ((fix go l : Forall Q l := match l with [] => Forall_nil Q | x :: l => Forall_cons x (pv_ind2 x) (go l) end) l)
    | PLick n i a => H6 n i a (pv_ind2 n) (pv_ind2 i) (pv_ind2 a)
    | PLobby => H7 | POther k => H8 k
    end.
End PvInd.

Section Proofs.
  Context (strcmp : list Z -> list Z -> Z) (asked : pv -> Z) (other_string : pv -> list Z) (SO : strcmp_ok strcmp).
  Notation vcmp := (vcmp strcmp asked other_string).
  Notation order := (order strcmp asked other_string).

  Lemma num_sgn i j : (if i <? j then PN_NUM (-1) else if i =? j then PN_ZERO else PN_NUM 1) = PN_NUM (Z.sgn (i - j)).
  Proof.
    destruct (i <? j) eqn:A; [f_equal; lia|]. destruct (i =? j) eqn:B; [|f_equal; lia].
    replace (Z.sgn (i - j)) with 0 by lia. reflexivity.
  Qed.
  Lemma at_once (c : nat -> cres) w : (forall n, c (S n) = CRet w) -> exists n, forall m, (n <= m)%nat -> c m = CRet w.
  Proof. intros H. exists 1%nat. intros [|m] L; [lia | apply H]. Qed.
  Lemma raw_m1 : raw (-1) = PN_NUM (-1). Proof. reflexivity. Qed.
  Lemma raw_1 : raw 1 = PN_NUM 0. Proof. reflexivity. Qed.
  Lemma raw_0 : raw 0 = PN_NIL. Proof. reflexivity. Qed.

  Lemma removelast_len {A} (x : A) l : zlen (removelast (x :: l)) = zlen l.
  Proof.
    revert x. induction l as [|y l IH]; intros x; [reflexivity|].
    change (removelast (x :: y :: l)) with (x :: removelast (y :: l)). rewrite !zlen_cons, IH. reflexivity.
  Qed.
  Lemma removelast_head {A} (x y : A) l : exists t, removelast (x :: y :: l) = x :: t.
  Proof. eexists. reflexivity. Qed.
  (** equal first elements: both lists shrink from the end until one is empty *)
  Lemma shrink x y : (exists n, forall m, (n <= m)%nat -> vcmp m x y = CRet PN_ZERO) ->
    forall k l l', (length l <= k)%nat -> answers (fun n => vcmp n (PTup (x :: l)) (PTup (y :: l'))) (by_length (zlen (x :: l)) (zlen (y :: l'))).
  Proof.
    intros (n0 & H). induction k as [|k IH]; intros l l' L.
    - destruct l; [|cbn in L; lia].
      assert (G : forall m, (S n0 <= m)%nat -> vcmp (S m) (PTup [x]) (PTup (y :: l')) = CRet (match l' with [] => raw 0 | _ => raw (-1) end)).
      { intros m Lm. cbn [vcmp]. rewrite (H m ltac:(lia)). change (PN_ZERO =? PN_ZERO) with true. cbv iota.
        destruct m as [|m]; [lia|]. cbn [vcmp]. destruct l' as [|z l']; [reflexivity|].
        destruct (removelast_head y z l') as (t & ->). reflexivity. }
      unfold by_length, answers. destruct l' as [|z l'].
      + change (zlen [x] =? zlen [y]) with true. exists (S (S n0)). intros [|m] Lm; [lia|]. rewrite G by lia. reflexivity.
      + rewrite !zlen_cons. pose proof (zlen_nonneg l'). change (zlen (@nil pv)) with 0.
        replace (1 + 0 =? 1 + (1 + zlen l')) with false by lia. replace (1 + 0 <? 1 + (1 + zlen l')) with true by lia.
        exists (S (S n0)). intros [|m] Lm; [lia|]. rewrite G by lia. reflexivity.
    - destruct l as [|z l]; [apply (IH [] l'); cbn; lia|].
      destruct l' as [|z' l'].
      + unfold by_length. rewrite !zlen_cons. pose proof (zlen_nonneg l). change (zlen (@nil pv)) with 0.
        replace (1 + (1 + zlen l) =? 1 + 0) with false by lia. replace (1 + (1 + zlen l) <? 1 + 0) with false by lia.
        exists (S (S n0)). intros [|m] Lm; [lia|]. cbn [vcmp]. rewrite (H m ltac:(lia)). change (PN_ZERO =? PN_ZERO) with true. cbv iota.
        destruct m as [|m]; [lia|]. cbn [vcmp]. destruct (removelast_head x z l) as (t & ->). reflexivity.
      + specialize (IH (removelast (z :: l)) (removelast (z' :: l'))).
        assert (EL : (length (removelast (z :: l)) <= k)%nat).
        { pose proof (removelast_len z l) as R. unfold zlen in R. cbn in L. lia. }
        specialize (IH EL).
        replace (by_length (zlen (x :: z :: l)) (zlen (y :: z' :: l'))) with (by_length (zlen (x :: removelast (z :: l))) (zlen (y :: removelast (z' :: l')))).
        2: { unfold by_length. rewrite !zlen_cons, !removelast_len.
             replace (1 + (1 + zlen l) =? 1 + (1 + zlen l')) with (1 + zlen l =? 1 + zlen l') by lia.
             replace (1 + (1 + zlen l) <? 1 + (1 + zlen l')) with (1 + zlen l <? 1 + zlen l') by lia. reflexivity. }
        assert (ST : forall r, (exists n, forall m, (n <= m)%nat -> vcmp m (PTup (x :: removelast (z :: l))) (PTup (y :: removelast (z' :: l'))) = r) ->
          exists n, forall m, (n <= m)%nat -> vcmp m (PTup (x :: z :: l)) (PTup (y :: z' :: l')) = r).
        { intros r (n1 & K). exists (S (Nat.max n0 n1)). intros [|m] Lm; [lia|]. cbn [vcmp]. rewrite (H m ltac:(lia)).
          change (PN_ZERO =? PN_ZERO) with true. cbv iota. apply K. lia. }
        unfold by_length in *. destruct (_ =? _); [exact (ST _ IH)|]. destruct (_ <? _); exact (ST _ IH).
  Qed.

  Lemma order_range : forall a v z, order a v = Int z -> -2147483648 <= z < 2147483648.
  Proof.
    pose proof (fun x y => proj2 (SO x y)) as R.
    induction a as [|b|i|l|l IH|n i a _ _ _| |k] using pv_ind2; intros v z E.
    5: { destruct v as [|[|]|j|s|l'|n i' a| |k]; cbn [PropCmp.order] in E; try discriminate; try (injection E as <-; lia).
         unfold by_length in E. destruct l as [|x l], l' as [|y l'].
         1-3: repeat (destruct (_ =? _) in E || destruct (_ <? _) in E); try discriminate; injection E as <-; lia.
         inversion IH as [|x' l0 Hx _]; subst. destruct (order x y) as [w| | |] eqn:E1; try discriminate.
         specialize (Hx _ _ E1). destruct w; [|injection E as <-; lia..].
         repeat (destruct (_ =? _) in E || destruct (_ <? _) in E); try discriminate; injection E as <-; lia. }
    all: destruct v as [|[|]|j|s|l'|n' i' a'| |k']; cbn [PropCmp.order] in E; try destruct b; try discriminate; injection E as <-; try apply R; lia.
  Qed.
End Proofs.

(** ** C62 *)
Theorem C62_cmp_answers strcmp asked other_string a v : strcmp_ok strcmp ->
  answers (fun n => vcmp strcmp asked other_string n a v) (order strcmp asked other_string a v).
Proof.
  intros SO. revert v. induction a as [|b|i|l|l IH|n i a _ _ _| |k] using pv_ind2; intros v.
  - destruct v as [|[|]|j|s|l'|n i a| |k]; cbn [order]; apply at_once; intros n0; cbn [vcmp vnil_cmp vbool_cmp vnum_cmp vstr_cmp negb andb]; try reflexivity.
    unfold vnum_cmp. f_equal. exact (num_sgn 0 j).
  - destruct v as [|b'|j|s|l'|n i a| |k]; cbn [order]; destruct b; try (apply at_once; intros n0; cbn [vcmp vbool_cmp]; unfold vnum_cmp; rewrite ?num_sgn; reflexivity);
      destruct b'; apply at_once; intros n0; reflexivity.
  - destruct v as [|b'|j|s|l'|n i' a| |k]; cbn [order]; apply at_once; intros n0; cbn [vcmp]; unfold vnum_cmp; rewrite num_sgn; reflexivity.
  - destruct v as [|b'|j|s|l'|n i' a| |k]; cbn [order]; apply at_once; intros n0; cbn [vcmp vstr_cmp]; reflexivity.
  - destruct v as [|[|]|j|s|l'|n i' a| |k]; cbn [order];
      try (exists 1%nat; intros [|m] L; [lia|]; reflexivity).
    destruct l as [|x l].
    + exists 1%nat || idtac. unfold by_length. destruct l' as [|y l'].
      * exists 1%nat. intros [|m] L; [lia|]. reflexivity.
      * rewrite zlen_cons. pose proof (zlen_nonneg l'). change (zlen (@nil pv)) with 0.
        replace (0 =? 1 + zlen l') with false by lia. replace (0 <? 1 + zlen l') with true by lia.
        exists 1%nat. intros [|m] L; [lia|]. reflexivity.
    + destruct l' as [|y l'].
      * unfold by_length. rewrite zlen_cons. pose proof (zlen_nonneg l). change (zlen (@nil pv)) with 0.
        replace (1 + zlen l =? 0) with false by lia. replace (1 + zlen l <? 0) with false by lia.
        exists 1%nat. intros [|m] L; [lia|]. reflexivity.
      * inversion IH as [|x' l0 Hx _]; subst. specialize (Hx y).
        assert (ST : forall r, (exists n, forall m, (n <= m)%nat -> vcmp strcmp asked other_string m x y = r) ->
          match r with CRet c => c =? PN_ZERO = false | CFatal => True | CMore => False end ->
          exists n, forall m, (n <= m)%nat -> vcmp strcmp asked other_string m (PTup (x :: l)) (PTup (y :: l')) = r).
        { intros r (n1 & K) R. exists (S n1). intros [|m] Lm; [lia|]. cbn [vcmp]. rewrite (K m ltac:(lia)). destruct r; [rewrite R|..]; reflexivity. }
        destruct (order strcmp asked other_string x y) as [z| | |] eqn:E.
        -- destruct (Z.eq_dec z 0) as [->|Nz].
           ++ apply (shrink strcmp asked other_string x y Hx (length l) l l'). lia.
           ++ enough (G : answers (fun n => vcmp strcmp asked other_string n (PTup (x :: l)) (PTup (y :: l'))) (Int z)) by (destruct z; [lia | exact G | exact G]).
              apply (ST _ Hx). pose proof (order_range strcmp asked other_string SO x y z E) as R.
              change PN_ZERO with (PN_NUM 0). apply Z.eqb_neq. intros C. apply PN_NUM_inj in C; unfold repb, two62 in *; lia.
        -- apply (ST _ Hx). reflexivity.
        -- apply (ST _ Hx). exact Logic.I.
        -- intros [|m]; [reflexivity|]. cbn [vcmp]. cbn [answers] in Hx. rewrite Hx. reflexivity.
  - intros m. induction m as [|m IHm]; [reflexivity | exact IHm].
  - destruct v; cbn [order]; apply at_once; intros n0; reflexivity.
  - intros m. induction m as [|m IHm]; [reflexivity | exact IHm].
Qed.

(** the spec's [lex] is a total order on byte strings *)
Theorem C62_string_order a b c :
  (lex a b = 0 <-> a = b) /\ lex b a = - lex a b /\ (lex a b <= 0 -> lex b c <= 0 -> lex a c <= 0)
  /\ (lex a b = -1 \/ lex a b = 0 \/ lex a b = 1).
Proof.
  split; [split|split; [|split]].
  - revert b. induction a as [|x a IH]; intros [|y b]; cbn [lex]; try discriminate; [reflexivity|].
    destruct (x <? y) eqn:A; [discriminate|]. destruct (y <? x) eqn:B; [discriminate|]. intros H. f_equal; [lia | apply IH, H].
  - intros <-. induction a as [|x a IH]; [reflexivity|]. cbn [lex]. rewrite Z.ltb_irrefl. exact IH.
  - revert b. induction a as [|x a IH]; intros [|y b]; cbn [lex]; try reflexivity.
    destruct (x <? y) eqn:A, (y <? x) eqn:B; try lia; try apply IH.
  - revert b c. induction a as [|x a IH]; intros [|y b] [|z c]; cbn [lex]; try lia.
    destruct (x <? y) eqn:A, (y <? x) eqn:B, (y <? z) eqn:C, (z <? y) eqn:D, (x <? z) eqn:F, (z <? x) eqn:G; try lia. apply IH.
  - revert b. induction a as [|x a IH]; intros [|y b]; cbn [lex]; try tauto.
    destruct (x <? y), (y <? x); try tauto. apply IH.
Qed.
(** a comparison of strings has the sign of that order; of integers, of their order *)
Theorem C62_strings strcmp asked other_string l l' : strcmp_ok strcmp ->
  exists z, answers (fun n => vcmp strcmp asked other_string n (PStr l) (PStr l')) (Int z) /\ Z.sgn z = lex l l'.
Proof.
  intros SO. exists (strcmp l l'). split; [exact (C62_cmp_answers strcmp asked other_string (PStr l) (PStr l') SO) | apply SO].
Qed.
Theorem C62_integers strcmp asked other_string i j :
  answers (fun n => vcmp strcmp asked other_string n (PInt i) (PInt j)) (Int (if i <? j then -1 else if i =? j then 0 else 1)).
Proof. apply at_once. intros n. cbn [vcmp]. unfold vnum_cmp. destruct (i <? j); [reflexivity|]. destruct (i =? j); reflexivity. Qed.
(** of two non-empty tuples only the first elements and the lengths are looked at *)
Theorem C62_tuples_first_only strcmp asked other_string x l y l' m m' a : strcmp_ok strcmp ->
  zlen m = zlen l -> zlen m' = zlen l' ->
  answers (fun n => vcmp strcmp asked other_string n (PTup (x :: l)) (PTup (y :: l'))) a ->
  answers (fun n => vcmp strcmp asked other_string n (PTup (x :: m)) (PTup (y :: m'))) a.
Proof.
  intros SO L L' A.
  assert (U : forall c r r', answers c r -> answers c r' -> r = r' \/ exists z z', r = Int z /\ r' = Int z' /\ PN_NUM z = PN_NUM z').
  { clear. intros c [z| | |] [z'| | |]; cbn [answers]; intros R R'; try (left; reflexivity).
    all: try (destruct R as (n & R); destruct R' as (n' & R'); pose proof (R (n + n')%nat ltac:(lia)) as K; rewrite (R' (n + n')%nat ltac:(lia)) in K;
      try discriminate; injection K as K).
    all: try (destruct R as (n & R); specialize (R n ltac:(lia)); rewrite R' in R; discriminate).
    all: try (destruct R' as (n & R'); specialize (R' n ltac:(lia)); rewrite R in R'; discriminate).
    1: right; eauto.
    all: exfalso; assert (X : PN_IS_INT PN_NIL = true) by (first [rewrite K | rewrite <- K]; apply PN_NUM_is_int); discriminate. }
  pose proof (C62_cmp_answers strcmp asked other_string (PTup (x :: l)) (PTup (y :: l')) SO) as B.
  pose proof (C62_cmp_answers strcmp asked other_string (PTup (x :: m)) (PTup (y :: m')) SO) as C.
  cbn [order] in B, C. rewrite !zlen_cons in *. rewrite L, L' in C.
  destruct (U _ _ _ B A) as [E|(z & z' & E & -> & K)]; [rewrite <- E; exact C|]. rewrite E in C. cbn [answers] in *. rewrite <- K. exact C.
Qed.

(** ** Specification of "string" and "join" *)
Fixpoint joined (sep : list Z) (ls : list (list Z)) : list Z :=
  match ls with
  | [] => []
  | [a] => a
  | a :: ls => a ++ sep ++ joined sep ls
  end.
Definition only_licks (l : list pv) : Prop := l <> [] /\ Forall (fun v => exists n i a, v = PLick n i a) l.
(** plain data: nil, true, false, the integers from 0, and tuples of plain data *)
Fixpoint plain (v : pv) : Prop :=
  match v with
  | PNil | PBool _ => True
  | PInt n => 0 <= n < two62
  | PTup l => (fix all l := match l with [] => True | x :: l => plain x /\ all l end) l
  | _ => False
  end.
(** the expression that denotes it *)
Fixpoint denote (v : pv) : exp :=
  match v with
  | PBool b => ELit (if b then PN_TRUE else PN_FALSE)
  | PInt n => ELit (PN_NUM n)
  | PTup l => EList ((fix all l := match l with [] => Nil | x :: l => Cons (denote x) (all l) end) l)
  | _ => ELit PN_NIL
  end.

(** ** C63 *)
Lemma each_joined f l i : 0 < i -> each_str f i l = match l with [] => [] | _ => s_comma ++ joined s_comma (map f l) end.
Proof.
  revert i. induction l as [|x l IH]; intros i P; [reflexivity|].
  change (each_str f i (x :: l)) with ((if 0 <? i then s_comma else []) ++ f x ++ each_str f (i + 1) l).
  replace (0 <? i) with true by lia. f_equal. rewrite IH by lia. cbn [map joined]. destruct l; [cbn [map]; apply app_nil_r | reflexivity].
Qed.
Lemma each_joined0 f l : each_str f 0 l = joined s_comma (map f l).
Proof.
  destruct l as [|x l]; [reflexivity|]. change (each_str f 0 (x :: l)) with ([] ++ f x ++ each_str f 1 l). cbn [app].
  rewrite each_joined by lia. cbn [map joined]. destruct l; [cbn [map]; apply app_nil_r | reflexivity].
Qed.
(** a tuple's string: its elements' strings, with commas, in parentheses ... *)
Theorem C63_tuple_string os l : ~ only_licks l ->
  vstring os (PTup l) = 40 :: joined [44; 32] (map (vstring os) l) ++ [41].
Proof.
  intros N. cbn [vstring]. rewrite each_joined0.
  destruct ((0 <? zlen (filter is_lick l)) && (zlen (filter is_lick l) =? zlen l)) eqn:E; [|reflexivity].
  exfalso. apply N. apply andb_true_iff in E. destruct E as [A B]. split; [destruct l; discriminate|].
  clear N A. apply Z.eqb_eq in B. unfold zlen in B. apply Nat2Z.inj in B.
  induction l as [|x l IH]; [constructor|]. cbn [filter] in B. assert (LE : (length (filter is_lick l) <= length l)%nat) by (clear; induction l as [|y l IHl]; cbn [filter length]; [lia|]; destruct (is_lick y); cbn [length]; lia).
  destruct (is_lick x) eqn:X; cbn [length] in B; [|lia].
  constructor; [destruct x; try discriminate; eauto | apply IH; lia].
Qed.
(** ... in square brackets when every element is a lick *)
Theorem C63_licks_string os l : only_licks l ->
  vstring os (PTup l) = 91 :: joined [44; 32] (map (vstring os) l) ++ [93].
Proof.
  intros [NE F]. cbn [vstring]. rewrite each_joined0.
  assert (E : filter is_lick l = l).
  { clear NE. induction F as [|x l (n & i & a & ->) F IH]; [reflexivity|]. cbn [filter is_lick]. rewrite IH. reflexivity. }
  rewrite E, Z.eqb_refl. destruct l as [|x l]; [congruence|]. rewrite zlen_cons. pose proof (zlen_nonneg l).
  replace (0 <? 1 + zlen l) with true by lia. reflexivity.
Qed.
Theorem C63_join os l sep : tuple_join os l sep = joined (match sep with PNil => [] | _ => vstring os sep end) (map (vstring os) l).
Proof.
  unfold tuple_join. set (g := match sep with PNil => [] | _ => vstring os sep end).
  assert (G : (if negb (is_nil sep) then vstring os sep else []) = g) by (destruct sep; reflexivity).
  assert (K : forall l i, 0 < i -> each_join os sep i l = match l with [] => [] | _ => g ++ joined g (map (vstring os) l) end).
  { clear l. induction l as [|x l IH]; intros i P; [reflexivity|]. cbn [each_join].
    replace (0 <? i) with true by lia. cbn [andb]. rewrite G. f_equal. rewrite IH by lia. cbn [map joined].
    destruct l; [cbn [map]; apply app_nil_r | reflexivity]. }
  destruct l as [|x l]; [reflexivity|]. cbn [each_join]. change (0 <? 0) with false. cbn [andb app].
  rewrite K by lia. cbn [map joined]. destruct l; [cbn [map]; apply app_nil_r | reflexivity].
Qed.
(** the string of plain data is a program, and parsing it builds the tree of the expression
    that denotes the data *)
Lemma tok_id w : tok w w.
Proof. exists []. split; [reflexivity | symmetry; apply app_nil_r]. Qed.
Lemma tokn_id w : tokn w w.
Proof. exists []. split; [apply lines_nil | symmetry; apply app_nil_r]. Qed.
Definition closer (c : Z) : bool := negb (word_char c) && negb (digit c).
Lemma joins_closer a c b : closer c = true -> joins a (c :: b) = true.
Proof. intros H. unfold joins. destruct (rev a) as [|x t]; [reflexivity|]. unfold closer in H. destruct (word_char x), (word_char c), (x =? 46), (digit c); try discriminate; reflexivity. Qed.
Lemma cat_closer (A B : lang) a b : A a -> B b -> match b with [] => True | c :: _ => closer c = true end -> (A ^^ B) (a ++ b).
Proof. intros HA HB C. exists a, b. repeat split; try assumption. destruct b; [unfold joins; destruct (rev a); reflexivity | apply joins_closer, C]. Qed.
Lemma joins_open c a b : word_char c = false -> c <> 46 -> joins [c] (a ++ b) = true.
Proof. intros W D. unfold joins. cbn [rev app]. destruct (a ++ b); [reflexivity|]. rewrite W. replace (c =? 46) with false by lia. reflexivity. Qed.
Lemma plain_not_licks l : plain (PTup l) -> ~ only_licks l.
Proof. intros P [NE F]. destruct l as [|x l]; [congruence|]. inversion F as [|x' l' (n & i & a & ->) _]; subst. cbn [plain] in P. tauto. Qed.
Lemma plain_text str os v : plain v -> text str (denote v) (vstring os v).
Proof.
  induction v as [|b|n|s|l IH|n i a _ _ _| |k] using pv_ind2; intros P; try (cbn [plain] in P; contradiction).
  - exists [110; 105; 108]. split; [apply tok_id | left; split; reflexivity].
  - destruct b; (eexists; split; [apply tok_id|]); [right; left | right; right; left]; split; reflexivity.
  - exists (sprintf_ld n). split; [apply tok_id|]. right; right; right; left. exists n. cbn [plain] in P. repeat split; try lia.
  - rewrite C63_tuple_string by (apply plain_not_licks, P). cbn [denote text].
    change (40 :: joined [44; 32] (map (vstring os) l) ++ [41]) with ([40] ++ (joined [44; 32] (map (vstring os) l) ++ [41])).
    left. exists [40], (joined [44; 32] (map (vstring os) l) ++ [41]). split; [reflexivity|]. split; [apply tokn_id|].
    split; [|apply joins_open; [reflexivity | lia]].
    apply cat_closer; [|apply tok_id | reflexivity].
    induction l as [|x l IHl]; [reflexivity|]. inversion IH as [|x' l' Hx Hl]; subst. cbn [plain] in P. destruct P as [Px Pl].
    cbn [map joined body]. specialize (Hx Px). specialize (IHl Hl Pl). destruct l as [|y l].
    + cbn [map]. rewrite <- (app_nil_r (vstring os x)). apply cat_closer; [exact Hx | left; reflexivity | exact Logic.I].
    + cbn [map] in *. apply cat_closer; [exact Hx | | reflexivity].
      change ([44; 32] ++ joined [44; 32] (vstring os y :: map (vstring os) l)) with ([44; 32] ++ joined [44; 32] (vstring os y :: map (vstring os) l)).
      exists [44; 32], (joined [44; 32] (vstring os y :: map (vstring os) l)). split; [reflexivity|].
      split; [exists [32]; split; [apply seps_blank; [reflexivity | apply seps_nil] | left; reflexivity]|].
      split; [exact IHl|]. unfold joins. cbn [rev app]. destruct (joined _ _); reflexivity.
Qed.
Theorem C63_string_reads_back str dbl junk os v : names_ok str -> plain v ->
  parses str dbl junk (vstring os v) (PTree (program (Cons (denote v) Nil))).
Proof.
  intros NK P. apply C60_parse_builds_the_tree; [exact NK|]. exists [], (vstring os v). split; [apply lines_nil|].
  split; [|reflexivity]. cbn [body]. rewrite <- (app_nil_r (vstring os v)).
  apply cat_closer; [apply plain_text, P | left; reflexivity | exact Logic.I].
Qed.

(** ** Concrete cases *)
Fixpoint ex_strcmp (a b : list Z) : Z :=
  match a, b with
  | [], [] => 0 | [], y :: _ => -1 | x :: _, [] => 1
  | x :: a, y :: b => if x =? y then ex_strcmp a b else if x <? y then -1 else 1
  end.
Example ex_strcmp_ok : strcmp_ok ex_strcmp.
Proof.
  intros a. induction a as [|x a IH]; intros [|y b]; cbn [ex_strcmp lex]; try lia.
  specialize (IH b). destruct (x =? y) eqn:A, (x <? y) eqn:B, (y <? x) eqn:C; try lia.
Qed.
Definition cmp_ := vcmp ex_strcmp (fun _ => 0) (fun _ => []) 20.
(** "abc" cmp "abd", 3 cmp 2, (1, 2) cmp (2) *)
Example cmp_str : cmp_ (PStr [97; 98; 99]) (PStr [97; 98; 100]) = CRet (PN_NUM (-1)). Proof. reflexivity. Qed.
Example cmp_int : cmp_ (PInt 3) (PInt 2) = CRet (PN_NUM 1). Proof. reflexivity. Qed.
Example cmp_tup : cmp_ (PTup [PInt 1; PInt 2]) (PTup [PInt 2]) = CRet (PN_NUM (-1)). Proof. reflexivity. Qed.
(** as written: (1, 2) cmp (1, 3) is nil, (1, 2) cmp (1) is 0, true cmp false is 0 (not 1),
    false cmp false is nil, () cmp 1 ends the process, 5 cmp "7" is 1 ("7" is not asked for
    its number), and a lick or an object compared to anything never answers *)
Example cmp_found :
  cmp_ (PTup [PInt 1; PInt 2]) (PTup [PInt 1; PInt 3]) = CRet PN_NIL
  /\ cmp_ (PTup [PInt 1; PInt 2]) (PTup [PInt 1]) = CRet (PN_NUM 0)
  /\ cmp_ (PBool true) (PBool false) = CRet (PN_NUM 0) /\ cmp_ (PBool false) (PBool false) = CRet PN_NIL
  /\ cmp_ (PTup []) (PInt 1) = CFatal /\ cmp_ (PInt 5) (PStr [55]) = CRet (PN_NUM 1)
  /\ cmp_ (POther 1) (POther 1) = CMore.
Proof. repeat split. Qed.
(** ((1, nil), true, ()) *)
Definition some_data : pv := PTup [PTup [PInt 1; PNil]; PBool true; PTup []].
Example data_string : vstring (fun _ => []) some_data
  = [40; 40; 49; 44; 32; 110; 105; 108; 41; 44; 32; 116; 114; 117; 101; 44; 32; 40; 41; 41].
Proof. reflexivity. Qed.
Example data_plain : plain some_data. Proof. cbn. unfold two62. lia. Qed.
(** strings are not quoted: ("a") prints as (a), whose element is a variable *)
Example string_unquoted : vstring (fun _ => []) (PTup [PStr [97]]) = [40; 97; 41]. Proof. reflexivity. Qed.
