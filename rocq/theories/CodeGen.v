(** The code of an expression, given the finished function it belongs to, and the
    proof that the structural compiler produces it. *)
From Verif Require Import Base Arr GArr WordModel AsmModel CompileModel VmModel SrcSpec CompileProofs CompileEq CompileExt.
From Coq Require Import ZifyBool.
Ltac Zify.zify_post_hook ::= Z.div_mod_to_equations.

Definition I (o : opc) (a b : Z) : instr := mkI o (sx12 a) (sx12 b).
Definition idx (l : list Z) (x : Z) : Z := match vfind l x with Some i => i | None => 0 end.
Definition imm (v : Z) : bool := negb (PN_IS_PTR v) && (v =? u64 (sx12 v)).

Section Gen.
Context (tbl : list pb).
Definition ups (l : Z) : list Z := match gnth tbl l with Some g => b_upvals g | None => [] end.

Fixpoint size (e : exp) : Z :=
  match e with
  | ELit _ | EVar _ | EUp _ | ESelf | EBreak | ECont => 1
  | EBin _ a b => size a + size b + 1
  | ENot a | EBitn a => size a + 1
  | EAnd a b | EOr a b => size a + 1 + size b
  | ESet _ e | EUpSet _ e => size e + 1
  | EGlob _ e => 1 + size e + 1
  | EInc _ _ post => if post then 5 else 4
  | EPath _ => 3
  | EPathOf e _ => size e + 2
  | EPathSet _ e => 2 + size e + 1
  | EList es => 1 + size_items es
  | ESend e _ es => size e + 3 + size_all es + 1
  | ESend0 e _ => size e + 5
  | ESelfSend _ es => 3 + size_all es + 1
  | ESelfSend0 _ => 5
  | ECallVar _ es | ECallUp _ es => 2 + size_all es + 1
  | ECallVal e es => size e + 1 + size_all es + 1
  | EIf e b k => size e + 1 + size_all b + size_clauses k
  | EWhile e b => size e + 1 + size_all b + 1
  | ELoop b => size_all b + 1
  | EReturn e => size e + 1
  | ESeq es => size_all es
  | ELick _ es => 1 + size_all es + 1
  | EAt _ _ k => match k with AInt _ => 2 | _ => 3 end
  | EFun l _ _ => 1 + zlen (ups l)
  end
with size_all (es : exps) : Z := match es with Nil => 0 | Cons e es => size e + size_all es end
with size_items (es : exps) : Z := match es with Nil => 0 | Cons e es => size e + 1 + size_items es end
with size_clauses (k : clauses) : Z :=
  match k with
  | KEnd => 0
  | KElse b => 1 + size_all b
  | KElsif e b k => 1 + size e + 1 + size_all b + size_clauses k
  end.

Context (F : pb).
Definition kx := idx (b_values F).
Definition lx := idx (b_locals F).
Definition ux := idx (b_upvals F).
Definition px := idx (b_protos F).
Definition capi (r x : Z) : instr :=
  match vfind (b_upvals F) x with Some n => I O_GETUPVAL r n | None => I O_GETLOCAL r (lx x) end.

Fixpoint gen (e : exp) (r pos tb tc : Z) : list instr :=
  match e with
  | ELit v => [if imm v then I O_LOADPN r v else I O_LOADK r (kx v)]
  | EVar x => [I O_GETLOCAL r (lx x)]
  | EUp x => [I O_GETUPVAL r (ux x)]
  | ESelf => [I O_SELF r 0]
  | EBin p a b => gen a r pos tb tc ++ gen b (r + 1) (pos + size a) tb tc ++ [I (opcode p) r (r + 1)]
  | ENot a => gen a r pos tb tc ++ [I O_NOT r r]
  | EBitn a => gen a r pos tb tc ++ [I O_BITN r r]
  | EAnd a b => gen a r pos tb tc ++ I O_NOTJMP r (size b) :: gen b r (pos + size a + 1) tb tc
  | EOr a b => gen a r pos tb tc ++ I O_TESTJMP r (size b) :: gen b r (pos + size a + 1) tb tc
  | ESet x e => gen e r pos tb tc ++ [I O_SETLOCAL r (lx x)]
  | EUpSet x e => gen e r pos tb tc ++ [I O_SETUPVAL r (ux x)]
  | EGlob x e => I O_LOADK r (kx x) :: gen e (r + 1) (pos + 1) tb tc ++ [I O_GLOBAL r (r + 1)]
  | EInc x up post =>
      let b := if post then r + 1 else r in
      [I O_GETLOCAL r (lx x)] ++ (if post then [I O_MOVE (r + 1) r] else [])
      ++ [I O_LOADPN (b + 1) (Z.lor (inc_word up post) 1); I O_ADD b (b + 1); I O_SETLOCAL b (lx x)]
  | EPath n => [I O_SELF r 0; I O_LOADK (r + 1) (kx n); I O_GETPATH r (r + 1)]
  | EPathOf e n => gen e r pos tb tc ++ [I O_LOADK (r + 1) (kx n); I O_GETPATH r (r + 1)]
  | EPathSet n e => [I O_SELF r 0; I O_LOADK (r + 1) (kx n)] ++ gen e (r + 2) (pos + 2) tb tc ++ [I O_SETPATH r (r + 2)]
  | EList es => I O_NEWTUPLE r 0 :: geni es r (pos + 1) tb tc
  | ESend e m es =>
      gen e r pos tb tc ++ [I O_MOVE (r + 1) r; I O_LOADK r (kx m); I O_MSG r (r + 1)]
      ++ gena es (r + 1) (pos + size e + 3) tb tc ++ [I O_CALL r (r + 1 + elen es)]
  | ESend0 e m =>
      gen e r pos tb tc ++ [I O_MOVE (r + 1) r; I O_LOADK r (kx m); I O_BIND r (r + 1);
                            I O_LOADPN (r + 2) PN_NIL; I O_CALL r (r + 2)]
  | ESelfSend m es =>
      [I O_SELF (r + 1) 0; I O_LOADK r (kx m); I O_MSG r (r + 1)]
      ++ gena es (r + 1) (pos + 3) tb tc ++ [I O_CALL r (r + 1 + elen es)]
  | ESelfSend0 m =>
      [I O_SELF (r + 1) 0; I O_LOADK r (kx m); I O_BIND r (r + 1); I O_LOADPN (r + 2) PN_NIL; I O_CALL r (r + 2)]
  | ECallVar x es =>
      [I O_GETLOCAL r (lx x); I O_SELF (r + 1) 0] ++ gena es (r + 1) (pos + 2) tb tc ++ [I O_CALL r (r + 1 + elen es)]
  | ECallUp x es =>
      [I O_GETUPVAL r (ux x); I O_SELF (r + 1) 0] ++ gena es (r + 1) (pos + 2) tb tc ++ [I O_CALL r (r + 1 + elen es)]
  | ECallVal e es =>
      gen e r pos tb tc ++ [I O_SELF (r + 1) 0] ++ gena es (r + 1) (pos + size e + 1) tb tc ++ [I O_CALL r (r + 1 + elen es)]
  | EIf e b k =>
      gen e (r + 1) pos tb tc ++ [I O_NOTJMP (r + 1) (size_all b)]
      ++ gens b r (pos + size e + 1) tb tc ++ genk k r (pos + size e + 1 + size_all b) tb tc
  | EWhile e b =>
      let en := pos + size e + 1 + size_all b + 1 in
      gen e (r + 1) pos tb tc ++ [I O_NOTJMP (r + 1) (size_all b + 1)]
      ++ gens b r (pos + size e + 1) en pos ++ [I O_JMP (pos - en) 0]
  | ELoop b =>
      let en := pos + size_all b + 1 in
      gens b r pos en pos ++ [I O_JMP (pos - en) 0]
  | EBreak => [I O_JMP (tb - pos - 1) 0]
  | ECont => [I O_JMP (tc - pos - 1) 0]
  | EReturn e => gen e r pos tb tc ++ [I O_RETURN r 0]
  | ESeq es => gens es r pos tb tc
  | ELick n es => I O_LOADK r (kx n) :: gena es r (pos + 1) tb tc ++ [I O_NEWLICK r (r + elen es)]
  | EAt up x k =>
      (if up then I O_GETUPVAL r (ux x) else I O_GETLOCAL r (lx x))
      :: match k with
         | AInt i => [I O_GETTUPLE r i]
         | AVar y => [I O_GETLOCAL (r + 1) (lx y); I O_GETTUPLE r (Z.lor (r + 1) ASM_TPL_IMM)]
         | AKey v => [I O_LOADK (r + 1) (kx v); I O_GETTABLE r (r + 1)]
         end
  | EFun l _ _ => I O_PROTO r (px l) :: map (capi r) (ups l)
  end
with gens (es : exps) (r pos tb tc : Z) : list instr :=
  match es with Nil => [] | Cons e es => gen e r pos tb tc ++ gens es r (pos + size e) tb tc end
with geni (es : exps) (r pos tb tc : Z) : list instr :=
  match es with
  | Nil => []
  | Cons e es => gen e (r + 1) pos tb tc ++ I O_SETTUPLE r (r + 1) :: geni es r (pos + size e + 1) tb tc
  end
with gena (es : exps) (r pos tb tc : Z) : list instr :=
  match es with Nil => [] | Cons e es => gen e (r + 1) pos tb tc ++ gena es (r + 1) (pos + size e) tb tc end
with genk (k : clauses) (r pos tb tc : Z) : list instr :=
  match k with
  | KEnd => []
  | KElse b => I O_TESTJMP (r + 1) (size_all b) :: gens b r (pos + 1) tb tc
  | KElsif e b k =>
      I O_TESTJMP (r + 1) (size e + 1 + size_all b) :: gen e (r + 1) (pos + 1) tb tc
      ++ [I O_NOTJMP (r + 1) (size_all b)] ++ gens b r (pos + 1 + size e + 1) tb tc
      ++ genk k r (pos + 1 + size e + 1 + size_all b) tb tc
  end.

Lemma zlen_gen :
  (forall e r pos tb tc, zlen (gen e r pos tb tc) = size e)
  /\ (forall es, (forall r pos tb tc, zlen (gens es r pos tb tc) = size_all es)
      /\ (forall r pos tb tc, zlen (geni es r pos tb tc) = size_items es)
      /\ (forall r pos tb tc, zlen (gena es r pos tb tc) = size_all es))
  /\ (forall k r pos tb tc, zlen (genk k r pos tb tc) = size_clauses k).
Proof.
  apply exp_ind3; intros; repeat match goal with IH : _ /\ _ |- _ => destruct IH end;
   try (match goal with |- _ /\ _ => repeat apply conj end; intros); cbn [gen gens geni gena genk size size_all size_items size_clauses]; cbv zeta.
  all: try match goal with |- context [if ?post then [I O_MOVE _ _] else _] => destruct post end.
  all: try match goal with k : akey |- _ => destruct k end.
  all: repeat (rewrite zlen_app || rewrite zlen_cons || rewrite zlen_nil || rewrite zlen_map);
    repeat match goal with IH : forall r pos tb tc, zlen _ = _ |- _ => rewrite IH end; try lia.
Qed.
Lemma size_pos : (forall e, 0 <= size e) /\ (forall es, 0 <= size_all es /\ 0 <= size_items es) /\ (forall k, 0 <= size_clauses k).
Proof.
  pose proof zlen_gen as (A & B & C).
  split; [|split].
  - intros e. rewrite <- (A e 0 0 0 0). apply zlen_nonneg.
  - intros es. destruct (B es) as (B1 & B2 & _). rewrite <- (B1 0 0 0 0), <- (B2 0 0 0 0). split; apply zlen_nonneg.
  - intros k. rewrite <- (C k 0 0 0 0). apply zlen_nonneg.
Qed.

(** what the finished function must contain for the code to make sense *)
Definition inl_ (l : list Z) (x : Z) : Prop := exists i, vfind l x = Some i.
Fixpoint gok (e : exp) : Prop :=
  match e with
  | ELit v => imm v = false -> inl_ (b_values F) v
  | EVar x => inl_ (b_locals F) x
  | EUp x => inl_ (b_upvals F) x
  | ESelf | EBreak | ECont => True
  | EBin p a b => src_op p = true /\ gok a /\ gok b
  | ENot a | EBitn a | EReturn a => gok a
  | EAnd a b | EOr a b => gok a /\ gok b
  | ESet x e => inl_ (b_locals F) x /\ gok e
  | EUpSet x e => inl_ (b_upvals F) x /\ gok e
  | EGlob x e => inl_ (b_values F) x /\ gok e
  | EInc x _ _ => inl_ (b_locals F) x
  | EPath n => inl_ (b_values F) n
  | EPathOf e n | EPathSet n e => inl_ (b_values F) n /\ gok e
  | EList es => gok_all es
  | ESend e m es => inl_ (b_values F) m /\ gok e /\ gok_all es
  | ESend0 e m => inl_ (b_values F) m /\ gok e
  | ESelfSend m es => inl_ (b_values F) m /\ gok_all es
  | ESelfSend0 m => inl_ (b_values F) m
  | ECallVar x es => inl_ (b_locals F) x /\ gok_all es
  | ECallUp x es => inl_ (b_upvals F) x /\ gok_all es
  | ECallVal e es => gok e /\ gok_all es
  | EIf e b k => (k = KEnd \/ keeps_all b = true) /\ gok e /\ gok_all b /\ gok_clauses k
  | EWhile e b => gok e /\ gok_all b
  | ELoop b => gok_all b
  | ESeq es => gok_all es
  | ELick n es => elen es <= 2 /\ inl_ (b_values F) n /\ gok_all es
  | EAt up x k => inl_ (if up then b_upvals F else b_locals F) x /\
                  match k with AInt i => 0 <= i < 1024 | AVar y => inl_ (b_locals F) y | AKey v => inl_ (b_values F) v end
  | EFun l ps b => inl_ (b_protos F) l /\ (exists g, gnth tbl l = Some g)
                   /\ forall x, In x (ups l) -> inl_ (b_upvals F) x \/ inl_ (b_locals F) x
  end
with gok_all (es : exps) : Prop := match es with Nil => True | Cons e es => gok e /\ gok_all es end
with gok_clauses (k : clauses) : Prop :=
  match k with
  | KEnd => True
  | KElse b => gok_all b
  | KElsif e b k => (k = KEnd \/ keeps_all b = true) /\ gok e /\ gok_all b /\ gok_clauses k
  end.
End Gen.

(** the code [l] is in [P] at [pos] *)
Definition has (P : list instr) (pos : Z) (l : list instr) : Prop :=
  forall i x, gnth l i = Some x -> gnth P (pos + i) = Some x.
Lemma has_nil P pos : has P pos [].
Proof. intros i x E. unfold gnth in E. destruct (i <? 0); [discriminate|]. destruct (Z.to_nat i); discriminate. Qed.
Lemma has_app P pos l1 l2 : has P pos l1 -> has P (pos + zlen l1) l2 -> has P pos (l1 ++ l2).
Proof.
  intros A B i x E. destruct (Z.lt_ge_cases i (zlen l1)).
  - rewrite gnth_app1 in E by lia. auto.
  - rewrite gnth_app2 in E by lia. apply B in E. replace (pos + zlen l1 + (i - zlen l1)) with (pos + i) in E by lia. exact E.
Qed.
Lemma has_cons P pos i l : gnth P pos = Some i -> has P (pos + 1) l -> has P pos (i :: l).
Proof.
  intros A B. change (i :: l) with ([i] ++ l). apply has_app; [|exact B].
  intros j x E. assert (j = 0) by (apply gnth_Some in E; unfold zlen in E; cbn [length] in E; lia). subst j. injection E as <-. rewrite Z.add_0_r. exact A.
Qed.
Lemma has_app_inv P pos l1 l2 : has P pos (l1 ++ l2) -> has P pos l1 /\ has P (pos + zlen l1) l2.
Proof.
  intros A. split; intros i x E.
  - apply A. pose proof (gnth_Some _ _ _ E). rewrite gnth_app1 by lia. exact E.
  - replace (pos + zlen l1 + i) with (pos + (zlen l1 + i)) by lia. apply A.
    pose proof (gnth_Some _ _ _ E). rewrite gnth_app2 by lia. replace (zlen l1 + i - zlen l1) with i by lia. exact E.
Qed.
Lemma has_cons_inv P pos i l : has P pos (i :: l) -> gnth P pos = Some i /\ has P (pos + 1) l.
Proof.
  intros A. change (i :: l) with ([i] ++ l) in A. apply has_app_inv in A. destruct A as [A B]. split; [|exact B].
  specialize (A 0 i eq_refl). rewrite Z.add_0_r in A. exact A.
Qed.

(* GENERATED *)
(** unfolding equations *)
Lemma size_ELit tbl z0 : size tbl (ELit z0) = (1).
Proof. reflexivity. Qed.
Lemma size_EVar tbl z0 : size tbl (EVar z0) = (1).
Proof. reflexivity. Qed.
Lemma size_EUp tbl z0 : size tbl (EUp z0) = (1).
Proof. reflexivity. Qed.
Lemma size_ESelf tbl : size tbl ESelf = (1).
Proof. reflexivity. Qed.
Lemma size_EBreak tbl : size tbl EBreak = (1).
Proof. reflexivity. Qed.
Lemma size_ECont tbl : size tbl ECont = (1).
Proof. reflexivity. Qed.
Lemma size_EBin tbl z0 a b : size tbl (EBin z0 a b) = (size tbl a + size tbl b + 1).
Proof. reflexivity. Qed.
Lemma size_ENot tbl a : size tbl (ENot a) = (size tbl a + 1).
Proof. reflexivity. Qed.
Lemma size_EBitn tbl a : size tbl (EBitn a) = (size tbl a + 1).
Proof. reflexivity. Qed.
Lemma size_EAnd tbl a b : size tbl (EAnd a b) = (size tbl a + 1 + size tbl b).
Proof. reflexivity. Qed.
Lemma size_EOr tbl a b : size tbl (EOr a b) = (size tbl a + 1 + size tbl b).
Proof. reflexivity. Qed.
Lemma size_ESet tbl z0 e : size tbl (ESet z0 e) = (size tbl e + 1).
Proof. reflexivity. Qed.
Lemma size_EUpSet tbl z0 e : size tbl (EUpSet z0 e) = (size tbl e + 1).
Proof. reflexivity. Qed.
Lemma size_EGlob tbl z0 e : size tbl (EGlob z0 e) = (1 + size tbl e + 1).
Proof. reflexivity. Qed.
Lemma size_EInc tbl z0 z1 post : size tbl (EInc z0 z1 post) = (if post then 5 else 4).
Proof. reflexivity. Qed.
Lemma size_EPath tbl z0 : size tbl (EPath z0) = (3).
Proof. reflexivity. Qed.
Lemma size_EPathOf tbl e z1 : size tbl (EPathOf e z1) = (size tbl e + 2).
Proof. reflexivity. Qed.
Lemma size_EPathSet tbl z0 e : size tbl (EPathSet z0 e) = (2 + size tbl e + 1).
Proof. reflexivity. Qed.
Lemma size_EList tbl es : size tbl (EList es) = (1 + size_items tbl es).
Proof. reflexivity. Qed.
Lemma size_ESend tbl e z1 es : size tbl (ESend e z1 es) = (size tbl e + 3 + size_all tbl es + 1).
Proof. reflexivity. Qed.
Lemma size_ESend0 tbl e z1 : size tbl (ESend0 e z1) = (size tbl e + 5).
Proof. reflexivity. Qed.
Lemma size_ESelfSend tbl z0 es : size tbl (ESelfSend z0 es) = (3 + size_all tbl es + 1).
Proof. reflexivity. Qed.
Lemma size_ESelfSend0 tbl z0 : size tbl (ESelfSend0 z0) = (5).
Proof. reflexivity. Qed.
Lemma size_ECallVar tbl z0 es : size tbl (ECallVar z0 es) = (2 + size_all tbl es + 1).
Proof. reflexivity. Qed.
Lemma size_ECallUp tbl z0 es : size tbl (ECallUp z0 es) = (2 + size_all tbl es + 1).
Proof. reflexivity. Qed.
Lemma size_ECallVal tbl e es : size tbl (ECallVal e es) = (size tbl e + 1 + size_all tbl es + 1).
Proof. reflexivity. Qed.
Lemma size_EIf tbl e b k : size tbl (EIf e b k) = (size tbl e + 1 + size_all tbl b + size_clauses tbl k).
Proof. reflexivity. Qed.
Lemma size_EWhile tbl e b : size tbl (EWhile e b) = (size tbl e + 1 + size_all tbl b + 1).
Proof. reflexivity. Qed.
Lemma size_ELoop tbl b : size tbl (ELoop b) = (size_all tbl b + 1).
Proof. reflexivity. Qed.
Lemma size_EReturn tbl e : size tbl (EReturn e) = (size tbl e + 1).
Proof. reflexivity. Qed.
Lemma size_ELick tbl n es : size tbl (ELick n es) = (1 + size_all tbl es + 1).
Proof. reflexivity. Qed.
Lemma size_EAt tbl up x k : size tbl (EAt up x k) = match k with AInt _ => 2 | _ => 3 end.
Proof. reflexivity. Qed.
Lemma size_ESeq tbl es : size tbl (ESeq es) = (size_all tbl es).
Proof. reflexivity. Qed.
Lemma size_EFun tbl l z1 z2 : size tbl (EFun l z1 z2) = (1 + zlen (ups tbl l)).
Proof. reflexivity. Qed.
Lemma size_all_Nil tbl : size_all tbl Nil = (0).
Proof. reflexivity. Qed.
Lemma size_all_Cons tbl e es : size_all tbl (Cons e es) = (size tbl e + size_all tbl es).
Proof. reflexivity. Qed.
Lemma size_items_Nil tbl : size_items tbl Nil = (0).
Proof. reflexivity. Qed.
Lemma size_items_Cons tbl e es : size_items tbl (Cons e es) = (size tbl e + 1 + size_items tbl es).
Proof. reflexivity. Qed.
Lemma size_clauses_KEnd tbl : size_clauses tbl KEnd = (0).
Proof. reflexivity. Qed.
Lemma size_clauses_KElse tbl b : size_clauses tbl (KElse b) = (1 + size_all tbl b).
Proof. reflexivity. Qed.
Lemma size_clauses_KElsif tbl e b k : size_clauses tbl (KElsif e b k) = (1 + size tbl e + 1 + size_all tbl b + size_clauses tbl k).
Proof. reflexivity. Qed.
Lemma gen_ELit tbl F v r pos tb tc : gen tbl F (ELit v) r pos tb tc = ([if imm v then I O_LOADPN r v else I O_LOADK r (kx F v)]).
Proof. reflexivity. Qed.
Lemma gen_EVar tbl F x r pos tb tc : gen tbl F (EVar x) r pos tb tc = ([I O_GETLOCAL r (lx F x)]).
Proof. reflexivity. Qed.
Lemma gen_EUp tbl F x r pos tb tc : gen tbl F (EUp x) r pos tb tc = ([I O_GETUPVAL r (ux F x)]).
Proof. reflexivity. Qed.
Lemma gen_ESelf tbl F  r pos tb tc : gen tbl F ESelf r pos tb tc = ([I O_SELF r 0]).
Proof. reflexivity. Qed.
Lemma gen_EBin tbl F p a b r pos tb tc : gen tbl F (EBin p a b) r pos tb tc = (gen tbl F a r pos tb tc ++ gen tbl F b (r + 1) (pos + size tbl a) tb tc ++ [I (opcode p) r (r + 1)]).
Proof. reflexivity. Qed.
Lemma gen_ENot tbl F a r pos tb tc : gen tbl F (ENot a) r pos tb tc = (gen tbl F a r pos tb tc ++ [I O_NOT r r]).
Proof. reflexivity. Qed.
Lemma gen_EBitn tbl F a r pos tb tc : gen tbl F (EBitn a) r pos tb tc = (gen tbl F a r pos tb tc ++ [I O_BITN r r]).
Proof. reflexivity. Qed.
Lemma gen_EAnd tbl F a b r pos tb tc : gen tbl F (EAnd a b) r pos tb tc = (gen tbl F a r pos tb tc ++ I O_NOTJMP r (size tbl b) :: gen tbl F b r (pos + size tbl a + 1) tb tc).
Proof. reflexivity. Qed.
Lemma gen_EOr tbl F a b r pos tb tc : gen tbl F (EOr a b) r pos tb tc = (gen tbl F a r pos tb tc ++ I O_TESTJMP r (size tbl b) :: gen tbl F b r (pos + size tbl a + 1) tb tc).
Proof. reflexivity. Qed.
Lemma gen_ESet tbl F x e r pos tb tc : gen tbl F (ESet x e) r pos tb tc = (gen tbl F e r pos tb tc ++ [I O_SETLOCAL r (lx F x)]).
Proof. reflexivity. Qed.
Lemma gen_EUpSet tbl F x e r pos tb tc : gen tbl F (EUpSet x e) r pos tb tc = (gen tbl F e r pos tb tc ++ [I O_SETUPVAL r (ux F x)]).
Proof. reflexivity. Qed.
Lemma gen_EGlob tbl F x e r pos tb tc : gen tbl F (EGlob x e) r pos tb tc = (I O_LOADK r (kx F x) :: gen tbl F e (r + 1) (pos + 1) tb tc ++ [I O_GLOBAL r (r + 1)]).
Proof. reflexivity. Qed.
Lemma gen_EInc tbl F x up post r pos tb tc : gen tbl F (EInc x up post) r pos tb tc = (let b := if post then r + 1 else r in
      [I O_GETLOCAL r (lx F x)] ++ (if post then [I O_MOVE (r + 1) r] else [])
      ++ [I O_LOADPN (b + 1) (Z.lor (inc_word up post) 1); I O_ADD b (b + 1); I O_SETLOCAL b (lx F x)]).
Proof. reflexivity. Qed.
Lemma gen_EPath tbl F n r pos tb tc : gen tbl F (EPath n) r pos tb tc = ([I O_SELF r 0; I O_LOADK (r + 1) (kx F n); I O_GETPATH r (r + 1)]).
Proof. reflexivity. Qed.
Lemma gen_EPathOf tbl F e n r pos tb tc : gen tbl F (EPathOf e n) r pos tb tc = (gen tbl F e r pos tb tc ++ [I O_LOADK (r + 1) (kx F n); I O_GETPATH r (r + 1)]).
Proof. reflexivity. Qed.
Lemma gen_EPathSet tbl F n e r pos tb tc : gen tbl F (EPathSet n e) r pos tb tc = ([I O_SELF r 0; I O_LOADK (r + 1) (kx F n)] ++ gen tbl F e (r + 2) (pos + 2) tb tc ++ [I O_SETPATH r (r + 2)]).
Proof. reflexivity. Qed.
Lemma gen_EList tbl F es r pos tb tc : gen tbl F (EList es) r pos tb tc = (I O_NEWTUPLE r 0 :: geni tbl F es r (pos + 1) tb tc).
Proof. reflexivity. Qed.
Lemma gen_ESend tbl F e m es r pos tb tc : gen tbl F (ESend e m es) r pos tb tc = (gen tbl F e r pos tb tc ++ [I O_MOVE (r + 1) r; I O_LOADK r (kx F m); I O_MSG r (r + 1)]
      ++ gena tbl F es (r + 1) (pos + size tbl e + 3) tb tc ++ [I O_CALL r (r + 1 + elen es)]).
Proof. reflexivity. Qed.
Lemma gen_ESend0 tbl F e m r pos tb tc : gen tbl F (ESend0 e m) r pos tb tc = (gen tbl F e r pos tb tc ++ [I O_MOVE (r + 1) r; I O_LOADK r (kx F m); I O_BIND r (r + 1);
                            I O_LOADPN (r + 2) PN_NIL; I O_CALL r (r + 2)]).
Proof. reflexivity. Qed.
Lemma gen_ESelfSend tbl F m es r pos tb tc : gen tbl F (ESelfSend m es) r pos tb tc = ([I O_SELF (r + 1) 0; I O_LOADK r (kx F m); I O_MSG r (r + 1)]
      ++ gena tbl F es (r + 1) (pos + 3) tb tc ++ [I O_CALL r (r + 1 + elen es)]).
Proof. reflexivity. Qed.
Lemma gen_ESelfSend0 tbl F m r pos tb tc : gen tbl F (ESelfSend0 m) r pos tb tc = ([I O_SELF (r + 1) 0; I O_LOADK r (kx F m); I O_BIND r (r + 1); I O_LOADPN (r + 2) PN_NIL; I O_CALL r (r + 2)]).
Proof. reflexivity. Qed.
Lemma gen_ECallVar tbl F x es r pos tb tc : gen tbl F (ECallVar x es) r pos tb tc = ([I O_GETLOCAL r (lx F x); I O_SELF (r + 1) 0] ++ gena tbl F es (r + 1) (pos + 2) tb tc ++ [I O_CALL r (r + 1 + elen es)]).
Proof. reflexivity. Qed.
Lemma gen_ECallUp tbl F x es r pos tb tc : gen tbl F (ECallUp x es) r pos tb tc = ([I O_GETUPVAL r (ux F x); I O_SELF (r + 1) 0] ++ gena tbl F es (r + 1) (pos + 2) tb tc ++ [I O_CALL r (r + 1 + elen es)]).
Proof. reflexivity. Qed.
Lemma gen_ECallVal tbl F e es r pos tb tc : gen tbl F (ECallVal e es) r pos tb tc = (gen tbl F e r pos tb tc ++ [I O_SELF (r + 1) 0] ++ gena tbl F es (r + 1) (pos + size tbl e + 1) tb tc ++ [I O_CALL r (r + 1 + elen es)]).
Proof. reflexivity. Qed.
Lemma gen_EIf tbl F e b k r pos tb tc : gen tbl F (EIf e b k) r pos tb tc = (gen tbl F e (r + 1) pos tb tc ++ [I O_NOTJMP (r + 1) (size_all tbl b)]
      ++ gens tbl F b r (pos + size tbl e + 1) tb tc ++ genk tbl F k r (pos + size tbl e + 1 + size_all tbl b) tb tc).
Proof. reflexivity. Qed.
Lemma gen_EWhile tbl F e b r pos tb tc : gen tbl F (EWhile e b) r pos tb tc = (let en := pos + size tbl e + 1 + size_all tbl b + 1 in
      gen tbl F e (r + 1) pos tb tc ++ [I O_NOTJMP (r + 1) (size_all tbl b + 1)]
      ++ gens tbl F b r (pos + size tbl e + 1) en pos ++ [I O_JMP (pos - en) 0]).
Proof. reflexivity. Qed.
Lemma gen_ELoop tbl F b r pos tb tc : gen tbl F (ELoop b) r pos tb tc = (let en := pos + size_all tbl b + 1 in
      gens tbl F b r pos en pos ++ [I O_JMP (pos - en) 0]).
Proof. reflexivity. Qed.
Lemma gen_EBreak tbl F  r pos tb tc : gen tbl F EBreak r pos tb tc = ([I O_JMP (tb - pos - 1) 0]).
Proof. reflexivity. Qed.
Lemma gen_ECont tbl F  r pos tb tc : gen tbl F ECont r pos tb tc = ([I O_JMP (tc - pos - 1) 0]).
Proof. reflexivity. Qed.
Lemma gen_EReturn tbl F e r pos tb tc : gen tbl F (EReturn e) r pos tb tc = (gen tbl F e r pos tb tc ++ [I O_RETURN r 0]).
Proof. reflexivity. Qed.
Lemma gen_ELick tbl F n es r pos tb tc : gen tbl F (ELick n es) r pos tb tc = (I O_LOADK r (kx F n) :: gena tbl F es r (pos + 1) tb tc ++ [I O_NEWLICK r (r + elen es)]).
Proof. reflexivity. Qed.
Lemma gen_EAt tbl F up x k r pos tb tc : gen tbl F (EAt up x k) r pos tb tc =
  ((if up then I O_GETUPVAL r (ux F x) else I O_GETLOCAL r (lx F x))
      :: match k with
         | AInt i => [I O_GETTUPLE r i]
         | AVar y => [I O_GETLOCAL (r + 1) (lx F y); I O_GETTUPLE r (Z.lor (r + 1) ASM_TPL_IMM)]
         | AKey v => [I O_LOADK (r + 1) (kx F v); I O_GETTABLE r (r + 1)]
         end).
Proof. reflexivity. Qed.
Lemma gen_ESeq tbl F es r pos tb tc : gen tbl F (ESeq es) r pos tb tc = (gens tbl F es r pos tb tc).
Proof. reflexivity. Qed.
Lemma gen_EFun tbl F l z1 z2 r pos tb tc : gen tbl F (EFun l z1 z2) r pos tb tc = (I O_PROTO r (px F l) :: map (capi F r) (ups tbl l)).
Proof. reflexivity. Qed.
Lemma gens_Nil tbl F  r pos tb tc : gens tbl F Nil r pos tb tc = ([]).
Proof. reflexivity. Qed.
Lemma gens_Cons tbl F e es r pos tb tc : gens tbl F (Cons e es) r pos tb tc = (gen tbl F e r pos tb tc ++ gens tbl F es r (pos + size tbl e) tb tc).
Proof. reflexivity. Qed.
Lemma geni_Nil tbl F  r pos tb tc : geni tbl F Nil r pos tb tc = ([]).
Proof. reflexivity. Qed.
Lemma geni_Cons tbl F e es r pos tb tc : geni tbl F (Cons e es) r pos tb tc = (gen tbl F e (r + 1) pos tb tc ++ I O_SETTUPLE r (r + 1) :: geni tbl F es r (pos + size tbl e + 1) tb tc).
Proof. reflexivity. Qed.
Lemma gena_Nil tbl F  r pos tb tc : gena tbl F Nil r pos tb tc = ([]).
Proof. reflexivity. Qed.
Lemma gena_Cons tbl F e es r pos tb tc : gena tbl F (Cons e es) r pos tb tc = (gen tbl F e (r + 1) pos tb tc ++ gena tbl F es (r + 1) (pos + size tbl e) tb tc).
Proof. reflexivity. Qed.
Lemma genk_KEnd tbl F  r pos tb tc : genk tbl F KEnd r pos tb tc = ([]).
Proof. reflexivity. Qed.
Lemma genk_KElse tbl F b r pos tb tc : genk tbl F (KElse b) r pos tb tc = (I O_TESTJMP (r + 1) (size_all tbl b) :: gens tbl F b r (pos + 1) tb tc).
Proof. reflexivity. Qed.
Lemma genk_KElsif tbl F e b k r pos tb tc : genk tbl F (KElsif e b k) r pos tb tc = (I O_TESTJMP (r + 1) (size tbl e + 1 + size_all tbl b) :: gen tbl F e (r + 1) (pos + 1) tb tc
      ++ [I O_NOTJMP (r + 1) (size_all tbl b)] ++ gens tbl F b r (pos + 1 + size tbl e + 1) tb tc
      ++ genk tbl F k r (pos + 1 + size tbl e + 1 + size_all tbl b) tb tc).
Proof. reflexivity. Qed.
Lemma gok_ELit tbl F v : gok tbl F (ELit v) = (imm v = false -> inl_ (b_values F) v).
Proof. reflexivity. Qed.
Lemma gok_EVar tbl F x : gok tbl F (EVar x) = (inl_ (b_locals F) x).
Proof. reflexivity. Qed.
Lemma gok_EUp tbl F x : gok tbl F (EUp x) = (inl_ (b_upvals F) x).
Proof. reflexivity. Qed.
Lemma gok_ESelf tbl F : gok tbl F ESelf = (True).
Proof. reflexivity. Qed.
Lemma gok_EBreak tbl F : gok tbl F EBreak = (True).
Proof. reflexivity. Qed.
Lemma gok_ECont tbl F : gok tbl F ECont = (True).
Proof. reflexivity. Qed.
Lemma gok_EBin tbl F p a b : gok tbl F (EBin p a b) = (src_op p = true /\ gok tbl F a /\ gok tbl F b).
Proof. reflexivity. Qed.
Lemma gok_ENot tbl F a : gok tbl F (ENot a) = (gok tbl F a).
Proof. reflexivity. Qed.
Lemma gok_EBitn tbl F a : gok tbl F (EBitn a) = (gok tbl F a).
Proof. reflexivity. Qed.
Lemma gok_EReturn tbl F a : gok tbl F (EReturn a) = (gok tbl F a).
Proof. reflexivity. Qed.
Lemma gok_EAnd tbl F a b : gok tbl F (EAnd a b) = (gok tbl F a /\ gok tbl F b).
Proof. reflexivity. Qed.
Lemma gok_EOr tbl F a b : gok tbl F (EOr a b) = (gok tbl F a /\ gok tbl F b).
Proof. reflexivity. Qed.
Lemma gok_ESet tbl F x e : gok tbl F (ESet x e) = (inl_ (b_locals F) x /\ gok tbl F e).
Proof. reflexivity. Qed.
Lemma gok_EUpSet tbl F x e : gok tbl F (EUpSet x e) = (inl_ (b_upvals F) x /\ gok tbl F e).
Proof. reflexivity. Qed.
Lemma gok_EGlob tbl F x e : gok tbl F (EGlob x e) = (inl_ (b_values F) x /\ gok tbl F e).
Proof. reflexivity. Qed.
Lemma gok_EInc tbl F x z1 z2 : gok tbl F (EInc x z1 z2) = (inl_ (b_locals F) x).
Proof. reflexivity. Qed.
Lemma gok_EPath tbl F n : gok tbl F (EPath n) = (inl_ (b_values F) n).
Proof. reflexivity. Qed.
Lemma gok_EPathOf tbl F e n : gok tbl F (EPathOf e n) = (inl_ (b_values F) n /\ gok tbl F e).
Proof. reflexivity. Qed.
Lemma gok_EPathSet tbl F n e : gok tbl F (EPathSet n e) = (inl_ (b_values F) n /\ gok tbl F e).
Proof. reflexivity. Qed.
Lemma gok_EList tbl F es : gok tbl F (EList es) = (gok_all tbl F es).
Proof. reflexivity. Qed.
Lemma gok_ESend tbl F e m es : gok tbl F (ESend e m es) = (inl_ (b_values F) m /\ gok tbl F e /\ gok_all tbl F es).
Proof. reflexivity. Qed.
Lemma gok_ESend0 tbl F e m : gok tbl F (ESend0 e m) = (inl_ (b_values F) m /\ gok tbl F e).
Proof. reflexivity. Qed.
Lemma gok_ESelfSend tbl F m es : gok tbl F (ESelfSend m es) = (inl_ (b_values F) m /\ gok_all tbl F es).
Proof. reflexivity. Qed.
Lemma gok_ESelfSend0 tbl F m : gok tbl F (ESelfSend0 m) = (inl_ (b_values F) m).
Proof. reflexivity. Qed.
Lemma gok_ECallVar tbl F x es : gok tbl F (ECallVar x es) = (inl_ (b_locals F) x /\ gok_all tbl F es).
Proof. reflexivity. Qed.
Lemma gok_ECallUp tbl F x es : gok tbl F (ECallUp x es) = (inl_ (b_upvals F) x /\ gok_all tbl F es).
Proof. reflexivity. Qed.
Lemma gok_ECallVal tbl F e es : gok tbl F (ECallVal e es) = (gok tbl F e /\ gok_all tbl F es).
Proof. reflexivity. Qed.
Lemma gok_EIf tbl F e b k : gok tbl F (EIf e b k) = ((k = KEnd \/ keeps_all b = true) /\ gok tbl F e /\ gok_all tbl F b /\ gok_clauses tbl F k).
Proof. reflexivity. Qed.
Lemma gok_EWhile tbl F e b : gok tbl F (EWhile e b) = (gok tbl F e /\ gok_all tbl F b).
Proof. reflexivity. Qed.
Lemma gok_ELoop tbl F b : gok tbl F (ELoop b) = (gok_all tbl F b).
Proof. reflexivity. Qed.
Lemma gok_ELick tbl F n es : gok tbl F (ELick n es) = (elen es <= 2 /\ inl_ (b_values F) n /\ gok_all tbl F es).
Proof. reflexivity. Qed.
Lemma gok_EAt tbl F up x k : gok tbl F (EAt up x k) = (inl_ (if up then b_upvals F else b_locals F) x /\
                  match k with AInt i => 0 <= i < 1024 | AVar y => inl_ (b_locals F) y | AKey v => inl_ (b_values F) v end).
Proof. reflexivity. Qed.
Lemma gok_ESeq tbl F es : gok tbl F (ESeq es) = (gok_all tbl F es).
Proof. reflexivity. Qed.
Lemma gok_EFun tbl F l ps b : gok tbl F (EFun l ps b) = (inl_ (b_protos F) l /\ (exists g, gnth tbl l = Some g)
                   /\ forall x, In x (ups tbl l) -> inl_ (b_upvals F) x \/ inl_ (b_locals F) x).
Proof. reflexivity. Qed.
Lemma gok_all_Nil tbl F : gok_all tbl F Nil = (True).
Proof. reflexivity. Qed.
Lemma gok_all_Cons tbl F e es : gok_all tbl F (Cons e es) = (gok tbl F e /\ gok_all tbl F es).
Proof. reflexivity. Qed.
Lemma gok_clauses_KEnd tbl F : gok_clauses tbl F KEnd = (True).
Proof. reflexivity. Qed.
Lemma gok_clauses_KElse tbl F b : gok_clauses tbl F (KElse b) = (gok_all tbl F b).
Proof. reflexivity. Qed.
Lemma gok_clauses_KElsif tbl F e b k : gok_clauses tbl F (KElsif e b k) = ((k = KEnd \/ keeps_all b = true) /\ gok tbl F e /\ gok_all tbl F b /\ gok_clauses tbl F k).
Proof. reflexivity. Qed.
Global Hint Rewrite size_ELit : csize.
Global Hint Rewrite size_EVar : csize.
Global Hint Rewrite size_EUp : csize.
Global Hint Rewrite size_ESelf : csize.
Global Hint Rewrite size_EBreak : csize.
Global Hint Rewrite size_ECont : csize.
Global Hint Rewrite size_EBin : csize.
Global Hint Rewrite size_ENot : csize.
Global Hint Rewrite size_EBitn : csize.
Global Hint Rewrite size_EAnd : csize.
Global Hint Rewrite size_EOr : csize.
Global Hint Rewrite size_ESet : csize.
Global Hint Rewrite size_EUpSet : csize.
Global Hint Rewrite size_EGlob : csize.
Global Hint Rewrite size_EInc : csize.
Global Hint Rewrite size_EPath : csize.
Global Hint Rewrite size_EPathOf : csize.
Global Hint Rewrite size_EPathSet : csize.
Global Hint Rewrite size_EList : csize.
Global Hint Rewrite size_ESend : csize.
Global Hint Rewrite size_ESend0 : csize.
Global Hint Rewrite size_ESelfSend : csize.
Global Hint Rewrite size_ESelfSend0 : csize.
Global Hint Rewrite size_ECallVar : csize.
Global Hint Rewrite size_ECallUp : csize.
Global Hint Rewrite size_ECallVal : csize.
Global Hint Rewrite size_EIf : csize.
Global Hint Rewrite size_EWhile : csize.
Global Hint Rewrite size_ELoop : csize.
Global Hint Rewrite size_EReturn : csize.
Global Hint Rewrite size_ELick : csize.
Global Hint Rewrite size_EAt : csize.
Global Hint Rewrite size_ESeq : csize.
Global Hint Rewrite size_EFun : csize.
Global Hint Rewrite size_all_Nil : csize.
Global Hint Rewrite size_all_Cons : csize.
Global Hint Rewrite size_items_Nil : csize.
Global Hint Rewrite size_items_Cons : csize.
Global Hint Rewrite size_clauses_KEnd : csize.
Global Hint Rewrite size_clauses_KElse : csize.
Global Hint Rewrite size_clauses_KElsif : csize.
Global Hint Rewrite gen_ELit : cgen.
Global Hint Rewrite gen_EVar : cgen.
Global Hint Rewrite gen_EUp : cgen.
Global Hint Rewrite gen_ESelf : cgen.
Global Hint Rewrite gen_EBin : cgen.
Global Hint Rewrite gen_ENot : cgen.
Global Hint Rewrite gen_EBitn : cgen.
Global Hint Rewrite gen_EAnd : cgen.
Global Hint Rewrite gen_EOr : cgen.
Global Hint Rewrite gen_ESet : cgen.
Global Hint Rewrite gen_EUpSet : cgen.
Global Hint Rewrite gen_EGlob : cgen.
Global Hint Rewrite gen_EInc : cgen.
Global Hint Rewrite gen_EPath : cgen.
Global Hint Rewrite gen_EPathOf : cgen.
Global Hint Rewrite gen_EPathSet : cgen.
Global Hint Rewrite gen_EList : cgen.
Global Hint Rewrite gen_ESend : cgen.
Global Hint Rewrite gen_ESend0 : cgen.
Global Hint Rewrite gen_ESelfSend : cgen.
Global Hint Rewrite gen_ESelfSend0 : cgen.
Global Hint Rewrite gen_ECallVar : cgen.
Global Hint Rewrite gen_ECallUp : cgen.
Global Hint Rewrite gen_ECallVal : cgen.
Global Hint Rewrite gen_EIf : cgen.
Global Hint Rewrite gen_EWhile : cgen.
Global Hint Rewrite gen_ELoop : cgen.
Global Hint Rewrite gen_EBreak : cgen.
Global Hint Rewrite gen_ECont : cgen.
Global Hint Rewrite gen_EReturn : cgen.
Global Hint Rewrite gen_ELick : cgen.
Global Hint Rewrite gen_EAt : cgen.
Global Hint Rewrite gen_ESeq : cgen.
Global Hint Rewrite gen_EFun : cgen.
Global Hint Rewrite gens_Nil : cgen.
Global Hint Rewrite gens_Cons : cgen.
Global Hint Rewrite geni_Nil : cgen.
Global Hint Rewrite geni_Cons : cgen.
Global Hint Rewrite gena_Nil : cgen.
Global Hint Rewrite gena_Cons : cgen.
Global Hint Rewrite genk_KEnd : cgen.
Global Hint Rewrite genk_KElse : cgen.
Global Hint Rewrite genk_KElsif : cgen.
Global Hint Rewrite gok_ELit : cgok.
Global Hint Rewrite gok_EVar : cgok.
Global Hint Rewrite gok_EUp : cgok.
Global Hint Rewrite gok_ESelf : cgok.
Global Hint Rewrite gok_EBreak : cgok.
Global Hint Rewrite gok_ECont : cgok.
Global Hint Rewrite gok_EBin : cgok.
Global Hint Rewrite gok_ENot : cgok.
Global Hint Rewrite gok_EBitn : cgok.
Global Hint Rewrite gok_EReturn : cgok.
Global Hint Rewrite gok_EAnd : cgok.
Global Hint Rewrite gok_EOr : cgok.
Global Hint Rewrite gok_ESet : cgok.
Global Hint Rewrite gok_EUpSet : cgok.
Global Hint Rewrite gok_EGlob : cgok.
Global Hint Rewrite gok_EInc : cgok.
Global Hint Rewrite gok_EPath : cgok.
Global Hint Rewrite gok_EPathOf : cgok.
Global Hint Rewrite gok_EPathSet : cgok.
Global Hint Rewrite gok_EList : cgok.
Global Hint Rewrite gok_ESend : cgok.
Global Hint Rewrite gok_ESend0 : cgok.
Global Hint Rewrite gok_ESelfSend : cgok.
Global Hint Rewrite gok_ESelfSend0 : cgok.
Global Hint Rewrite gok_ECallVar : cgok.
Global Hint Rewrite gok_ECallUp : cgok.
Global Hint Rewrite gok_ECallVal : cgok.
Global Hint Rewrite gok_EIf : cgok.
Global Hint Rewrite gok_EWhile : cgok.
Global Hint Rewrite gok_ELoop : cgok.
Global Hint Rewrite gok_ELick : cgok.
Global Hint Rewrite gok_EAt : cgok.
Global Hint Rewrite gok_ESeq : cgok.
Global Hint Rewrite gok_EFun : cgok.
Global Hint Rewrite gok_all_Nil : cgok.
Global Hint Rewrite gok_all_Cons : cgok.
Global Hint Rewrite gok_clauses_KEnd : cgok.
Global Hint Rewrite gok_clauses_KElse : cgok.
Global Hint Rewrite gok_clauses_KElsif : cgok.
