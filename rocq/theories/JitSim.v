(** The generated code and the interpreter, operation by operation. *)
From Coq Require Import ZifyBool.
From Verif Require Import Base Arr GArr WordModel WordProofs NumModel NumProofs AsmModel ObjModel SigModel CompileModel VmModel
  X86Model JitModel JitProofs JitSem JitArith.
Ltac Zify.zify_post_hook ::= Z.div_mod_to_equations.

Definition wordr (v : Z) : Prop := 0 <= v < two64.

(** frame slots an operation reads and writes; [regs] = number of registers *)
Definition reads (regs : Z) (i : instr) : list Z :=
  let a := ia i in
  let b := ib i in
  match ic i with
  | O_MOVE | O_CALLSET => [b]
  | O_GETLOCAL => [regs + b]
  | O_SETLOCAL | O_TEST | O_NOT | O_TESTJMP | O_NOTJMP | O_RETURN => [a]
  | O_GLOBAL | O_SETTUPLE | O_GETTABLE | O_GETPATH | O_ADD | O_SUB | O_MULT | O_DIV | O_REM | O_POW
  | O_EQ | O_NEQ | O_LT | O_LTE | O_GT | O_GTE | O_BITN | O_BIND | O_MSG | O_CLASS => [a; b]
  | O_SETTABLE | O_SETPATH | O_DEF => [a; a + 1; b]
  | O_CALL => a :: map (fun k => a + 1 + Z.of_nat k) (seq 0 (Z.to_nat (b - a)))
  | O_GETTUPLE => a :: (if negb (Z.land b ASM_TPL_IMM =? 0) then [b - ASM_TPL_IMM] else [])
  | O_NEWLICK => a :: (if a <? b then [a + 1] else []) ++ (if a + 1 <? b then [b] else [])
  | O_NAMED => [a; b - 1; b]
  | _ => []
  end.
Definition writes (regs : Z) (i : instr) : list Z :=
  match ic i with
  | O_SETLOCAL => [regs + ib i]
  | O_NONE | O_SETPATH | O_SETTABLE | O_JMP | O_TESTJMP | O_NOTJMP | O_RETURN | O_NAMED => []
  | _ => [ia i]
  end.
(** registers below [regs], locals below [nl], jumps inside the code *)
Definition wfi (regs nl n pos : Z) (i : instr) : Prop :=
  let reg r := 0 <= r < regs in
  let a := ia i in
  let b := ib i in
  match ic i with
  | O_NONE => True
  | O_LOADPN | O_SELF | O_TEST | O_NOT | O_NEWTUPLE => reg a
  | O_LOADK => reg a /\ b < 65536
  | O_GETLOCAL | O_SETLOCAL => reg a /\ 0 <= b < nl
  | O_SETTABLE | O_SETPATH | O_DEF => reg a /\ reg (a + 1) /\ reg b
  | O_MOVE | O_GLOBAL | O_SETTUPLE | O_GETTABLE | O_GETPATH | O_ADD | O_SUB | O_MULT | O_DIV | O_REM | O_POW
  | O_EQ | O_NEQ | O_LT | O_LTE | O_GT | O_GTE | O_BITN | O_BIND | O_MSG | O_CALLSET | O_CLASS => reg a /\ reg b
  | O_CALL => 0 <= a <= b /\ b < regs
  | O_GETTUPLE => reg a /\ (if negb (Z.land b ASM_TPL_IMM =? 0) then reg (b - ASM_TPL_IMM) else 0 <= b < ASM_TPL_IMM)
  | O_NEWLICK => reg a /\ (a < b -> reg (a + 1)) /\ (a + 1 < b -> reg b)
  | O_NAMED => reg a /\ a <= 13 /\ reg (b - 1) /\ reg b
  | O_JMP => 0 <= pos + a + 1 < n
  | O_TESTJMP | O_NOTJMP => reg a /\ 0 <= pos + b + 1 < n
  | _ => False
  end.

Lemma math3_same o x y : In o [O_ADD; O_SUB; O_MULT] -> wordr x -> wordr y -> Z.odd x = true -> Z.odd y = true ->
  - two62 <= zop (arith_of o) (PN_INT x) (PN_INT y) < two62 ->
  exists v, wordr v /\ vm_math3 (arith_of o) x y = NWord v /\ jmath o x y = Some v.
Proof.
  intros Ho Hx Hy Ox Oy Hr. rewrite <- PN_IS_INT_odd in Ox, Oy.
  pose proof (PN_INT_rep x) as Rx. pose proof (PN_INT_rep y) as Ry.
  apply PN_NUM_INT in Ox; [|exact Hx]. apply PN_NUM_INT in Oy; [|exact Hy].
  exists (PN_NUM (zop (arith_of o) (PN_INT x) (PN_INT y))). split; [apply PN_NUM_range|].
  set (i := PN_INT x) in *. set (j := PN_INT y) in *. rewrite <- Ox, <- Oy. clearbody i j. rewrite vm_math3_spec by assumption.
  assert (E : repb (zop (arith_of o) i j) = true) by (apply repb_spec; exact Hr). rewrite E.
  split; [reflexivity|]. apply repb_spec in Rx, Ry.
  destruct Ho as [<-|[<-|[<-|[]]]]; cbn [arith_of zop] in *.
  - rewrite jmath_add. reflexivity.
  - rewrite jmath_sub, E by assumption. reflexivity.
  - rewrite jmath_mult, E by assumption. reflexivity.
Qed.
Lemma math2_same o x y v : In o [O_DIV; O_REM] -> wordr x -> wordr y -> Z.odd x = true -> Z.odd y = true ->
  match o with
  | O_DIV => - 2^30 <= PN_INT x < 2^30 /\ - 2^30 <= PN_INT y < 2^30 /\ 0 <= Z.quot (PN_INT x) (PN_INT y)
  | _ => 0 <= PN_INT x < 2^30 /\ - 2^30 <= PN_INT y < 2^30
  end ->
  vm_math2 (arith_of o) x y = Ok v ->
  wordr v /\ jdiv (match o with O_REM => true | _ => false end) x y = Ok v.
Proof.
  intros Ho Hx Hy Ox Oy Hr. rewrite <- PN_IS_INT_odd in Ox, Oy.
  pose proof (PN_INT_rep x) as Rx. pose proof (PN_INT_rep y) as Ry.
  apply PN_NUM_INT in Ox; [|exact Hx]. apply PN_NUM_INT in Oy; [|exact Hy]. rewrite <- Ox, <- Oy.
  set (i := PN_INT x) in *. set (j := PN_INT y) in *. clearbody i j. clear Ox Oy Hx Hy x y.
  change (2^30) with 1073741824 in Hr. intros E.
  destruct (Z.eq_dec j 0) as [->|N].
  { destruct Ho as [<-|[<-|[]]]; cbn in E; discriminate E. }
  unfold vm_math2 in E. rewrite jdiv_num, !low31_id by (destruct Ho as [<-|[<-|[]]]; lia).
  replace (j =? 0) with false by lia.
  destruct Ho as [<-|[<-|[]]]; cbn [arith_of] in E.
  - rewrite num_math_div in E by assumption. injection E as <-. split; [apply PN_NUM_range|].
    pose proof (quot_bound i j ltac:(lia) N). rewrite Z.mod_small by lia. reflexivity.
  - rewrite num_math_rem in E by assumption. injection E as <-. split; [apply PN_NUM_range|].
    assert (0 <= Z.rem i j <= i).
    { split; [apply Z.rem_nonneg; lia|]. destruct (Z_lt_le_dec j 0); [rewrite <- Z.rem_opp_r by lia|]; apply Z.rem_le; lia. }
    rewrite Z.mod_small by lia. reflexivity.
Qed.
Lemma cmp_same o x y : In o [O_LT; O_LTE; O_GT; O_GTE] -> wordr x -> wordr y -> Z.odd x = true -> Z.odd y = true ->
  (0 <= PN_INT x <-> 0 <= PN_INT y) -> vm_numcmp (cmpop_of o) x y = if jcmp o x y then PN_TRUE else PN_FALSE.
Proof.
  intros Ho Hx Hy Ox Oy Hr. rewrite PN_INT_eq in Hr. rewrite PN_INT_eq in Hr. unfold vm_numcmp, jcmp, PN_BOOL.
  assert (K1 : (s64 x <? s64 y)=(x <? y)) by (unfold wordr, s64, two63, two64 in *; lia).
  assert (K2 : (s64 x <=? s64 y)=(x <=? y)) by (unfold wordr, s64, two63, two64 in *; lia).
  assert (K3 : (s64 y <? s64 x)=(y <? x)) by (unfold wordr, s64, two63, two64 in *; lia).
  assert (K4 : (s64 y <=? s64 x)=(y <=? x)) by (unfold wordr, s64, two63, two64 in *; lia).
  destruct Ho as [<-|[<-|[<-|[<-|[]]]]]; cbn [cmpop_of]; rewrite ?K1, ?K2, ?K3, ?K4; reflexivity.
Qed.

Section Sim.
  Context {W : Type} (H : host W).
  (** where both engines compute the same: [x] is register a, [y] register b,
      [l] the local *)
  Definition same_value (nc : Z -> list Z -> res (W * Z)) (w : W) (i : instr) (x y l : Z) (args : list Z) : Prop :=
    match ic i with
    | O_GETLOCAL => h_isref H w l = false
    | O_SETLOCAL => h_isref H w l = false
    | O_ADD | O_SUB | O_MULT =>
        if Z.odd x && Z.odd y then - two62 <= zop (arith_of (ic i)) (PN_INT x) (PN_INT y) < two62
        else h_isnum H w x = true /\ h_isnum H w y = true
    | O_DIV =>
        if Z.odd x && Z.odd y then
          - 2^30 <= PN_INT x < 2^30 /\ - 2^30 <= PN_INT y < 2^30 /\ 0 <= Z.quot (PN_INT x) (PN_INT y)
        else h_isnum H w x = true /\ h_isnum H w y = true
    | O_REM =>
        if Z.odd x && Z.odd y then
          0 <= PN_INT x < 2^30 /\ - 2^30 <= PN_INT y < 2^30
        else h_isnum H w x = true /\ h_isnum H w y = true
    | O_LT | O_LTE | O_GT | O_GTE =>
        Z.odd x = true /\ Z.odd y = true /\ (0 <= PN_INT x <-> 0 <= PN_INT y) /\
        (jcmp (ic i) x y = false -> ia i <= 15 \/ 31 < ia i)
    | O_BITN => ia i = ib i
    | O_SETTABLE => forall k r, h_prim H P_table_set w [x; k; y] = Ok r -> snd r = x
    | O_CALL =>
        ia i <= 15 /\ ib i - ia i <= 4 /\ nc x args = h_prim H P_call w (x :: args) /\
        exists sig arity minargs, h_kind H w x = KNative sig arity minargs /\
          (sig = None \/ sig_check minargs arity (ib i - ia i - 1) = false /\ arity <= ib i - ia i - 1)
    | _ => True
    end.

  (** the runtime functions, in terms of the interpreter's primitives; the first
      argument (P) is gone *)
  Definition rt_spec (f : cfun) (w : W) (args : list Z) : res (W * Z) :=
    let p q := h_prim H q w args in
    match f, args with
    | F_define_global, _ => p P_global
    | F_tuple_empty, _ => p P_tuple
    | F_tuple_push, _ => p P_push
    | F_table_at, _ => p P_table_at
    | F_table_set, _ => p P_table_set
    | F_obj_get, _ => p P_obj_get
    | F_obj_set, _ => p P_obj_set
    | F_obj_add, _ => p (P_num O_ADD)
    | F_obj_sub, _ => p (P_num O_SUB)
    | F_obj_mult, _ => p (P_num O_MULT)
    | F_obj_div, _ => p (P_num O_DIV)
    | F_obj_rem, _ => p (P_num O_REM)
    | F_num_pow, _ => p P_pow
    | F_vm_eq, [a; b] => if PN_IS_PTR a then p P_eq else Ok (w, PN_BOOL (a =? b))
    | F_vm_neq, [a; b] => if PN_IS_PTR a then p P_neq else Ok (w, PN_BOOL (negb (a =? b)))
    | F_obj_bitn, [a; _] => h_prim H P_bitn w [a]
    | F_def_method, _ => p P_def
    | F_bind, _ => p P_bind
    | F_message, _ => p P_message
    | F_get_callset, _ => p P_get_callset
    | F_vm_class, _ => p P_class
    | F_object_new, _ => p P_object_new
    | F_lick, _ => p P_lick
    | F_sig_find, _ => do r <- p P_sig_find; Ok (fst r, u32 (PN_INT (snd r)))
    | F_get_call, _ => p P_get_call
    | _, _ => UB
    end.

  Context (tbl : list pb) (is_str : Z -> bool) (STR0 : Z).
  Context (nested : Z -> Z -> list Z -> list Z -> W -> (Z -> Z) -> res (W * (Z -> Z) * Z)).
  Context (pid : Z) (f : pb) (Hf : proto_at tbl pid = Ok f) (Hup : b_upvals f = []).
  Context (Hword : forall p w l w' v, h_prim H p w l = Ok (w', v) -> wordr v).
  Context (Hvals : forall b v, rd (b_values f) b = Ok v -> wordr v).
  Context (rt : cfun -> W -> list Z -> res (W * Z)) (load : W -> Z -> res Z) (nc : W -> Z -> Z -> list Z -> res (W * Z)) (Pw clw : Z).
  Context (Hrt : forall g w args, g <> F_values -> g <> F_fwd -> rt g w (Pw :: args) = rt_spec g w args).
  Context (Hval : forall w b v, rd (b_values f) b = Ok v ->
    exists vt, rt F_values w [Pw; clw] = Ok (w, vt) /\ load w (u64 (u64 (vt + (16 + b * 8)) + 0)) = Ok v).
  Let regs := b_stack f.
  Let nl := localsize f.
  Let need := regs + nl + 3.
  Context (Hregs : 0 <= regs).
  Context (B : Z) (M0 : Z -> Z) (cu : Z).
  Notation step := (step H tbl is_str STR0 nested).
  Notation JS := (jsem rt load nc regs need B).

  (** where the interpreter keeps slot [k] *)
  Definition vloc (k : Z) : Z := if k <? regs then cu + nl + 1 + k else cu + (k - regs).
  Definition vval (st : list Z) (k : Z) : Z := znth st (vloc k).
  Record rel (D : Z -> bool) (s : vst W) (M : Z -> Z) : Prop := mkRel {
    r_f : v_f s = pid; r_cu : v_cu s = cu;
    r_D : forall k, 0 <= k < regs + nl -> D k = true ->
            rd (v_st s) (vloc k) = Ok (M (B + slot k)) /\ wordr (M (B + slot k));
    r_self : rd (v_st s) (cu + nl) = Ok (M (B + slot (need - 1))) /\ wordr (M (B + slot (need - 1)));
    r_P : M (B + slot (need - 3)) = Pw; r_cl : M (B + slot (need - 2)) = clw;
    r_hi : forall ad, B <= ad -> M ad = M0 ad }.
  (** what an operation writes: a named argument goes to the register of the
      parameter it names *)
  Definition wrote (s : vst W) (i : instr) : list Z :=
    match ic i with
    | O_NAMED => match h_prim H P_sig_find (v_w s) [vval (v_st s) (ia i); vval (v_st s) (ib i - 1)] with
                 | Ok r => [ia i + 2 + PN_INT (snd r)] | _ => [] end
    | _ => writes regs i
    end.
  Definition addD (D : Z -> bool) (l : list Z) : Z -> bool := fun k => existsb (Z.eqb k) l || D k.
  Definition agree (D : Z -> bool) (s : vst W) (i : instr) : Prop :=
    wfi regs nl (zlen (b_code f)) (v_pos s) i /\
    Forall (fun k => D k = true) (reads regs i) /\
    same_value (nc (v_w s) Pw) (v_w s) i (vval (v_st s) (ia i)) (vval (v_st s) (ib i)) (vval (v_st s) (regs + ib i))
      (map (fun k => vval (v_st s) (ia i + 1 + Z.of_nat k)) (seq 0 (Z.to_nat (ib i - ia i)))) /\
    (ic i = O_NAMED -> Forall (fun k => k < regs /\ k < 2147483648) (wrote s i)).

  Lemma nl_nonneg : 0 <= nl. Proof. apply zlen_nonneg. Qed.
  Lemma slot_inj j k : slot j = slot k -> j = k.
  Proof. unfold slot. lia. Qed.
  Lemma rd_inv l i v : rd l i = Ok v -> 0 <= i < zlen l /\ znth l i = v.
  Proof. unfold rd, inb. destruct ((0 <=? i) && (i <? zlen l)) eqn:E; [|discriminate]. intros [= <-]. split; [lia|reflexivity]. Qed.
  Lemma wr_inv l i v l' : wr l i v = Ok l' -> 0 <= i < zlen l /\ l' = upd l i v.
  Proof. unfold wr, inb. destruct ((0 <=? i) && (i <? zlen l)) eqn:E; [|discriminate]. intros [= <-]. split; [lia|reflexivity]. Qed.
  Lemma rd_upd l i j v x : 0 <= i < zlen l -> rd l j = Ok x -> rd (upd l i v) j = Ok (if j =? i then v else x).
  Proof.
    intros Hi R. apply rd_inv in R as [R1 R2]. rewrite rd_ok by (rewrite zlen_upd; lia). f_equal.
    rewrite znth_upd by lia. destruct (j =? i) eqn:E1, (i =? j) eqn:E2; try lia; auto.
  Qed.
  Lemma rel_set D s M a v st' pos' w' fs' : rel D s M -> 0 <= a < regs + nl -> wordr v ->
    wr (v_st s) (vloc a) v = Ok st' ->
    rel (addD D [a]) (mkV st' cu pid pos' w' fs') (setm M (B + slot a) v).
  Proof.
    intros [R1 R2 R3 R4 R5 R6 R7] Ha Hv Hw. apply wr_inv in Hw as [Hi ->]. pose proof nl_nonneg as Hn.
    assert (Ne : forall k, k <> a -> setm M (B + slot a) v (B + slot k) = M (B + slot k)).
    { intros k N. unfold setm. destruct (B + slot k =? B + slot a) eqn:E; [|reflexivity]. exfalso. apply N. apply slot_inj. lia. }
    assert (Eq : setm M (B + slot a) v (B + slot a) = v) by (unfold setm; rewrite Z.eqb_refl; reflexivity).
    split; cbn [v_f v_cu v_st]; auto.
    - intros k Hk Dk. unfold addD in Dk. cbn [existsb] in Dk. destruct (Z.eq_dec k a) as [->|N].
      + rewrite Eq. split; [|exact Hv]. rewrite rd_ok by (rewrite zlen_upd; lia). rewrite znth_upd_same by lia. reflexivity.
      + replace (k =? a) with false in Dk by lia. cbn [orb] in Dk. destruct (R3 k Hk Dk) as [Q1 Q2]. rewrite (Ne k N).
        split; [|exact Q2]. rewrite (rd_upd _ _ _ _ _ Hi Q1).
        replace (vloc k =? vloc a) with false; [reflexivity|]. unfold vloc. destruct (k <? regs) eqn:K1, (a <? regs) eqn:K2; lia.
    - rewrite Ne by (unfold need; lia). destruct R4 as [Q1 Q2]. split; [|exact Q2].
      rewrite (rd_upd _ _ _ _ _ Hi Q1). replace (cu + nl =? vloc a) with false; [reflexivity|].
      unfold vloc. destruct (a <? regs) eqn:K2; lia.
    - rewrite Ne by (unfold need; lia). exact R5.
    - rewrite Ne by (unfold need; lia). exact R6.
    - intros ad L. unfold setm. destruct (ad =? B + slot a) eqn:E; [unfold slot in E; lia|]. auto.
  Qed.
  Lemma rel_same D s M pos' w' fs' : rel D s M -> rel (addD D []) (mkV (v_st s) cu pid pos' w' fs') M.
  Proof. intros []. split; cbn [v_f v_cu v_st]; auto. Qed.

  Lemma fget_in M k : 0 <= k < need -> fget need B M k = Ok (M (B + slot k)).
  Proof. intros K. unfold fget. replace ((0 <=? k) && (k <? need)) with true by lia. reflexivity. Qed.
  Lemma fset_in M k v : 0 <= k < need -> fset need B M k v = Ok (setm M (B + slot k) v).
  Proof. intros K. unfold fset. replace ((0 <=? k) && (k <? need)) with true by lia. reflexivity. Qed.

  Lemma rel_ext D s M M' : (forall ad, M' ad = M ad) -> rel D s M -> rel D s M'.
  Proof. intros E []. split; auto; try (rewrite E; auto); intros; rewrite ?E; auto. Qed.
  Lemma regb k : 0 <= k < regs -> regbase cu f + k = vloc k.
  Proof.
    intros K. unfold regbase, upvalsize, vloc. rewrite Hup. change (zlen (@nil Z)) with 0. fold nl.
    replace (k <? regs) with true by lia. lia.
  Qed.
  Lemma locb b : 0 <= b -> cu + upvalsize f + b = vloc (regs + b).
  Proof.
    intros K. unfold upvalsize, vloc. rewrite Hup. change (zlen (@nil Z)) with 0.
    replace (regs + b <? regs) with false by lia. lia.
  Qed.
  Definition nxt (i : instr) (s s' : vst W) (t : jt) : Prop :=
    match t with
    | JNext => v_pos s' = v_pos s + 1
    | JJump => exists r, jump_of i = Some r /\ v_pos s' = v_pos s + r + 1
    | JRet _ => False
    end.
  Definition out (D : Z -> bool) (i : instr) (s s' : vst W) (M : Z -> Z) : Prop :=
    exists M' t, JS i (v_w s) M = Ok (v_w s', M', t) /\ rel (addD D (wrote s i)) s' M' /\ nxt i s s' t.
  Lemma u32_in x : 0 <= x < two32 -> u32 x = x.
  Proof. unfold u32, two32. intros. lia. Qed.

  Lemma fin_set D s M i a v w' s' : rel D s M -> 0 <= a < regs + nl -> wordr v ->
    0 <= v_pos s < zlen (b_code f) -> zlen (b_code f) < two32 ->
    (do st <- wr (v_st s) (vloc a) v; Ok (SRun (mkV st (v_cu s) (v_f s) (u32 (v_pos s + 1)) w' (v_fs s)))) = Ok (SRun s') ->
    exists M', (do m <- fset need B M a v; Ok (w', m, JNext)) = Ok (v_w s', M', JNext) /\ rel (addD D [a]) s' M' /\
               nxt i s s' JNext.
  Proof.
    intros R Ha Hv Hp Hc E. pose proof nl_nonneg as Hn. destruct (wr (v_st s) (vloc a) v) as [st'| |] eqn:Ew; try discriminate E.
    cbn [bind] in E. injection E as <-. rewrite fset_in by (unfold need; lia). cbn [bind v_w].
    exists (setm M (B + slot a) v). split; [reflexivity|]. split.
    - rewrite (r_f _ _ _ R), (r_cu _ _ _ R). apply (rel_set _ _ _ _ _ _ _ _ _ R Ha Hv Ew).
    - cbn [nxt v_pos]. apply u32_in. lia.
  Qed.

  Lemma rk D s M k : rel D s M -> D k = true -> 0 <= k < regs ->
    rd (v_st s) (regbase cu f + k) = Ok (M (B + slot k)) /\ wordr (M (B + slot k)) /\
    fget need B M k = Ok (M (B + slot k)) /\ vval (v_st s) k = M (B + slot k).
  Proof.
    intros R Dk K. pose proof nl_nonneg as Hn. rewrite (regb k K). destruct (r_D _ _ _ R k ltac:(lia) Dk) as [Q1 Q2].
    split; [exact Q1|]. split; [exact Q2|]. split; [apply fget_in; unfold need; lia|].
    apply rd_inv in Q1 as [_ Q1]. exact Q1.
  Qed.
  Lemma rkl D s M b : rel D s M -> D (regs + b) = true -> 0 <= b < nl ->
    rd (v_st s) (cu + upvalsize f + b) = Ok (M (B + slot (regs + b))) /\ wordr (M (B + slot (regs + b))) /\
    fget need B M (regs + b) = Ok (M (B + slot (regs + b))) /\ vval (v_st s) (regs + b) = M (B + slot (regs + b)).
  Proof.
    intros R Dk K. rewrite (locb b) by lia. destruct (r_D _ _ _ R (regs + b) ltac:(lia) Dk) as [Q1 Q2].
    split; [exact Q1|]. split; [exact Q2|]. split; [apply fget_in; unfold need; lia|].
    apply rd_inv in Q1 as [_ Q1]. exact Q1.
  Qed.
  Lemma rks D s M : rel D s M ->
    rd (v_st s) (regbase cu f + -1) = Ok (M (B + slot (need - 1))) /\ wordr (M (B + slot (need - 1))) /\
    fget need B M (need - 1) = Ok (M (B + slot (need - 1))).
  Proof.
    intros R. pose proof nl_nonneg as Hn. destruct (r_self _ _ _ R) as [Q1 Q2].
    replace (regbase cu f + -1) with (cu + nl). split; [exact Q1|]. split; [exact Q2|]. apply fget_in. unfold need. lia.
    unfold regbase, upvalsize. rewrite Hup. change (zlen (@nil Z)) with 0. fold nl. lia.
  Qed.
  Lemma rkP D s M : rel D s M -> fget need B M (need - 3) = Ok Pw /\ fget need B M (need - 2) = Ok clw.
  Proof.
    intros R. pose proof nl_nonneg as Hn. rewrite !fget_in by (unfold need; lia). rewrite (r_P _ _ _ R), (r_cl _ _ _ R). auto.
  Qed.
  Lemma jtest_PN x : wordr x -> jtest x = PN_TEST x.
  Proof. intros Hx. rewrite (jtest_ok x Hx). reflexivity. Qed.
  Lemma wordr_bool b : wordr (PN_BOOL b).
  Proof. destruct b; unfold wordr, PN_BOOL, PN_TRUE, PN_FALSE, two64; lia. Qed.


  Ltac rdk1 R E Sv Hd k := 
    let A1 := fresh "A" in let A2 := fresh "Wd" in let A3 := fresh "Fg" in let A4 := fresh "Vv" in
    destruct (rk _ _ _ k R Hd ltac:(lia)) as (A1 & A2 & A3 & A4);
    rewrite ?A1 in E; rewrite ?A4 in Sv; cbn [bind] in E; clear A1 A4 Hd.
  Ltac fins := 
    match goal with R : rel ?D ?s ?M, Hc : zlen (b_code f) < two32, Hp : 0 <= v_pos _ < zlen (b_code f), E : (do st <- wr _ (regbase cu f + ?k) ?v; _) = Ok (SRun ?s') |- _ => 
      rewrite (regb k) in E by lia; rewrite <- (r_f _ _ _ R), <- (r_cu _ _ _ R) in E;
      let M' := fresh "M'" in let Q1 := fresh in let Q2 := fresh in let Q3 := fresh in
      destruct (fin_set D s M (mkI O_NONE 0 0) k v _ s' R ltac:(lia) ltac:(first [assumption|apply u64_range|apply wordr_bool|eapply Hword; eassumption]) Hp Hc E) as (M' & Q1 & Q2 & Q3);
      exists M', JNext; split; [exact Q1|split; [exact Q2|exact Q3]] end.
  Ltac prim1 E := match type of E with (do r <- ?h; _) = _ => let Ep := fresh "Ep" in
    destruct h as [[? ?]| |] eqn:Ep; try discriminate E; cbn [bind fst snd] in E;
    try (rewrite Hrt by discriminate; cbn [rt_spec mathf]; rewrite ?Ep; cbn [bind fst snd]) end.
  Lemma math3_out o D s M a b s' : In o [O_ADD; O_SUB; O_MULT] -> rel D s M -> 0 <= a < regs ->
    0 <= v_pos s < zlen (b_code f) -> zlen (b_code f) < two32 ->
    wordr (M (B + slot a)) -> wordr (M (B + slot b)) ->
    (if Z.odd (M (B + slot a)) && Z.odd (M (B + slot b))
     then - two62 <= zop (arith_of o) (PN_INT (M (B + slot a))) (PN_INT (M (B + slot b))) < two62
     else h_isnum H (v_w s) (M (B + slot a)) = true /\ h_isnum H (v_w s) (M (B + slot b)) = true) ->
    (do r <- math3 H o (v_w s) (M (B + slot a)) (M (B + slot b));
     match snd r with
     | inl v => do st <- wr (v_st s) (regbase cu f + a) v;
                Ok (SRun (mkV st cu pid (u32 (v_pos s + 1)) (fst r) (v_fs s)))
     | inr e => Ok (SDone (fst r) (v_fs s) e)
     end) = Ok (SRun s') ->
    exists M' t,
    match (if Z.odd (M (B + slot a)) && Z.odd (M (B + slot b)) then jmath o (M (B + slot a)) (M (B + slot b)) else None) with
    | Some v => do m <- fset need B M a v; Ok (v_w s, m, JNext)
    | None => do r <- rt (mathf o) (v_w s) [Pw; M (B + slot a); M (B + slot b)];
              do m <- fset need B M a (snd r); Ok (fst r, m, JNext)
    end = Ok (v_w s', M', t) /\ rel (addD D [a]) s' M' /\ nxt (mkI o a b) s s' t.
  Proof.
    intros Ho R Ha Hp Hc Wa Wb Sv E. pose proof nl_nonneg as Hn. unfold math3 in E. rewrite !PN_IS_INT_odd in E.
    destruct (Z.odd (M (B + slot a)) && Z.odd (M (B + slot b))) eqn:Od.
    - apply andb_true_iff in Od as [Oa Ob]. destruct (math3_same o _ _ Ho Wa Wb Oa Ob Sv) as (v & Q1 & Q2 & Q3).
      rewrite Q2 in E. rewrite Q3. cbn [bind fst snd] in E. fins.
    - destruct Sv as [Na Nb]. unfold check_nums in E. rewrite Na, Nb in E. cbn [negb] in E.
      assert (Er : rt_spec (mathf o) (v_w s) [M (B + slot a); M (B + slot b)] = h_prim H (P_num o) (v_w s) [M (B + slot a); M (B + slot b)]).
      { destruct Ho as [<-|[<-|[<-|[]]]]; reflexivity. }
      rewrite Hrt by (destruct Ho as [<-|[<-|[<-|[]]]]; discriminate). rewrite Er.
      destruct (h_prim H (P_num o) (v_w s) [M (B + slot a); M (B + slot b)]) as [[w' v]| |] eqn:Ep; try discriminate E.
      cbn [bind fst snd] in E |- *. fins.
  Qed.
  Lemma math2_out o D s M a b s' : In o [O_DIV; O_REM] -> rel D s M -> 0 <= a < regs ->
    0 <= v_pos s < zlen (b_code f) -> zlen (b_code f) < two32 ->
    wordr (M (B + slot a)) -> wordr (M (B + slot b)) ->
    (if Z.odd (M (B + slot a)) && Z.odd (M (B + slot b))
     then match o with
          | O_DIV => - 2^30 <= PN_INT (M (B + slot a)) < 2^30 /\ - 2^30 <= PN_INT (M (B + slot b)) < 2^30
                     /\ 0 <= Z.quot (PN_INT (M (B + slot a))) (PN_INT (M (B + slot b)))
          | _ => 0 <= PN_INT (M (B + slot a)) < 2^30 /\ - 2^30 <= PN_INT (M (B + slot b)) < 2^30
          end
     else h_isnum H (v_w s) (M (B + slot a)) = true /\ h_isnum H (v_w s) (M (B + slot b)) = true) ->
    (do r <- math2 H o (v_w s) (M (B + slot a)) (M (B + slot b));
     match snd r with
     | inl v => do st <- wr (v_st s) (regbase cu f + a) v;
                Ok (SRun (mkV st cu pid (u32 (v_pos s + 1)) (fst r) (v_fs s)))
     | inr e => Ok (SDone (fst r) (v_fs s) e)
     end) = Ok (SRun s') ->
    exists M' t,
    (if Z.odd (M (B + slot a)) && Z.odd (M (B + slot b))
     then do v <- jdiv (match o with O_REM => true | _ => false end) (M (B + slot a)) (M (B + slot b));
          do m <- fset need B M a v; Ok (v_w s, m, JNext)
     else do r <- rt (mathf o) (v_w s) [Pw; M (B + slot a); M (B + slot b)];
          do m <- fset need B M a (snd r); Ok (fst r, m, JNext)) = Ok (v_w s', M', t) /\
    rel (addD D [a]) s' M' /\ nxt (mkI o a b) s s' t.
  Proof.
    intros Ho R Ha Hp Hc Wa Wb Sv E. pose proof nl_nonneg as Hn. unfold math2 in E. rewrite !PN_IS_INT_odd in E.
    destruct (Z.odd (M (B + slot a)) && Z.odd (M (B + slot b))) eqn:Od.
    - apply andb_true_iff in Od as [Oa Ob].
      destruct (vm_math2 (arith_of o) (M (B + slot a)) (M (B + slot b))) as [v| |] eqn:Ev; try discriminate E.
      destruct (math2_same o _ _ v Ho Wa Wb Oa Ob Sv Ev) as (Q1 & Q2).
      rewrite Q2. cbn [bind fst snd] in E |- *. fins.
    - destruct Sv as [Na Nb]. unfold check_nums in E. rewrite Na, Nb in E. cbn [negb] in E.
      assert (Er : rt_spec (mathf o) (v_w s) [M (B + slot a); M (B + slot b)] = h_prim H (P_num o) (v_w s) [M (B + slot a); M (B + slot b)]).
      { destruct Ho as [<-|[<-|[]]]; reflexivity. }
      rewrite Hrt by (destruct Ho as [<-|[<-|[]]]; discriminate). rewrite Er.
      destruct (h_prim H (P_num o) (v_w s) [M (B + slot a); M (B + slot b)]) as [[w' v]| |] eqn:Ep; try discriminate E.
      cbn [bind fst snd] in E |- *. fins.
  Qed.
  Lemma cmp_out o D s M a b s' : In o [O_LT; O_LTE; O_GT; O_GTE] -> rel D s M -> 0 <= a < regs ->
    0 <= v_pos s < zlen (b_code f) -> zlen (b_code f) < two32 ->
    wordr (M (B + slot a)) -> wordr (M (B + slot b)) ->
    (Z.odd (M (B + slot a)) = true /\ Z.odd (M (B + slot b)) = true /\
     (0 <= PN_INT (M (B + slot a)) <-> 0 <= PN_INT (M (B + slot b))) /\
     (jcmp o (M (B + slot a)) (M (B + slot b)) = false -> a <= 15 \/ 31 < a)) ->
    (do r <- numcmp H o (v_w s) (M (B + slot a)) (M (B + slot b));
     match snd r with
     | inl v => do st <- wr (v_st s) (regbase cu f + a) v;
                Ok (SRun (mkV st cu pid (u32 (v_pos s + 1)) (fst r) (v_fs s)))
     | inr e => Ok (SDone (fst r) (v_fs s) e)
     end) = Ok (SRun s') ->
    exists M' t,
    (if Z.odd (M (B + slot a)) && Z.odd (M (B + slot b)) then
       if jcmp o (M (B + slot a)) (M (B + slot b)) then do m <- fset need B M a PN_TRUE; Ok (v_w s, m, JNext)
       else if (15 <? a) && (a <? 32) then UB else do m <- fset need B M a PN_FALSE; Ok (v_w s, m, JNext)
     else UB) = Ok (v_w s', M', t) /\
    rel (addD D [a]) s' M' /\ nxt (mkI o a b) s s' t.
  Proof.
    intros Ho R Ha Hp Hc Wa Wb (Oa & Ob & Sg & Sm) E. pose proof nl_nonneg as Hn. unfold numcmp in E. rewrite !PN_IS_INT_odd in E.
    rewrite Oa, Ob in E |- *. cbn [andb] in E |- *. rewrite (cmp_same o _ _ Ho Wa Wb Oa Ob Sg) in E.
    pose proof (wordr_bool true) as WT. pose proof (wordr_bool false) as WF. cbn [PN_BOOL] in WT, WF.
    destruct (jcmp o (M (B + slot a)) (M (B + slot b))) eqn:J; cbn [bind fst snd] in E.
    - fins.
    - specialize (Sm eq_refl). replace ((15 <? a) && (a <? 32)) with false by lia. fins.
  Qed.
  Lemma regs_read D s M : rel D s M -> forall n j, 0 <= j -> j + Z.of_nat n <= regs ->
    (forall k, (k < n)%nat -> D (j + Z.of_nat k) = true) ->
    read_regs (v_st s) (regbase cu f + j) n = Ok (map (fun k => vval (v_st s) (j + Z.of_nat k)) (seq 0 n)) /\
    fargs need B M j n = Ok (map (fun k => vval (v_st s) (j + Z.of_nat k)) (seq 0 n)).
  Proof.
    intros R. induction n as [|n IH]; intros j Hj Hn HD; [split; reflexivity|].
    destruct (rk D s M j R) as (Q1 & _ & Q3 & Q4); [specialize (HD O ltac:(lia)); rewrite Z.add_0_r in HD; exact HD|lia|].
    destruct (IH (j + 1)) as [P1 P2]; [lia|lia| |].
    { intros k Hk. specialize (HD (S k) ltac:(lia)). replace (j + 1 + Z.of_nat k) with (j + Z.of_nat (S k)) by lia. exact HD. }
    cbn [read_regs fargs seq map]. rewrite Q1, Q3. cbn [bind]. rewrite <- Z.add_assoc, P1, P2. cbn [bind].
    rewrite <- (seq_shift n 0), map_map, Z.add_0_r, Q4.
    assert (E : map (fun k => vval (v_st s) (j + 1 + Z.of_nat k)) (seq 0 n) = map (fun x => vval (v_st s) (j + Z.of_nat (S x))) (seq 0 n)).
    { apply map_ext. intros k. f_equal. lia. }
    rewrite E. split; reflexivity.
  Qed.
  Context (Htup : forall w t i w' v, h_prim H P_tuple_at w [t; PN_NUM i] = Ok (w', v) ->
    w' = w /\ exists t', rt F_fwd w [t] = Ok (w, t') /\ load w (u64 (t' + (16 + i * 8))) = Ok v).
  Lemma sim_step D s M i s' : rel D s M -> instr_at f (v_pos s) = Some i -> zlen (b_code f) < two32 -> agree D s i ->
    step s = Ok (SRun s') -> ic i <> O_RETURN -> out D i s s' M.
  Proof.
    intros R Hi Hc (Wf & Rd & Sv & Sn) E Nr. pose proof nl_nonneg as Hn. pose proof (gnth_Some _ _ _ Hi) as Hp.
    unfold VmModel.step in E. rewrite (r_f _ _ _ R), Hf in E. cbn [bind] in E. rewrite (r_cu _ _ _ R) in E.
    replace (v_pos s <? zlen (b_code f)) with true in E by lia. cbn [negb] in E. rewrite Hi in E. cbv zeta in E.
    destruct (rkP _ _ _ R) as [FP Fc]. destruct i as [o a b]. unfold wfi in Wf. unfold same_value in Sv.
    unfold reads in Rd. unfold out, jsem. cbn [ic ia ib] in *.
    destruct (match o with O_CALL => true | _ => false end) eqn:Oc.
    { destruct o; try discriminate Oc. clear Oc. apply Forall_cons_iff in Rd as [Da Rd]. rewrite Forall_map, Forall_forall in Rd.
      destruct Sv as (A15 & A4 & Snc & sig & arity & minargs & Hk & Sg).
      destruct (rk _ _ _ a R Da ltac:(lia)) as (A1 & Wa & A3 & A5).
      destruct (regs_read D s M R (Z.to_nat (b - a)) (a + 1)) as [P1 P2]; [lia|lia|intros k Hkk; apply Rd; apply in_seq; lia|].
      rewrite A1 in E. cbn [bind] in E. rewrite A5 in Hk, Snc. rewrite Hk in E. unfold call_closure in E. rewrite Hk in E.
      assert (Ex : exists st', (if match sig with Some _ => sig_check minargs arity (b - a - 1) | None => false end
         then do r <- h_prim H P_sig_error (v_w s) [M (B + slot a); PN_NUM (b - a - 1)]; Ok (SDone (fst r) (v_fs s) (snd r))
         else do args <- read_regs (v_st s) (regbase cu f + a + 1) (Z.to_nat (b - a));
              do r <- h_prim H P_call (v_w s) (M (B + slot a) :: args);
              do st <- wr (v_st s) (regbase cu f + a) (snd r);
              Ok (SRun (mkV st (v_cu s) (v_f s) (u32 (v_pos s + 1)) (fst r) (v_fs s)))) = Ok (SRun s') /\ st' = s').
      { exists s'. split; [|reflexivity]. destruct Sg as [->|[S1 S2]].
        - cbn [bind] in E. replace (b + 0 - a) with (b - a) in E by lia. exact E.
        - destruct sig as [t|].
          + rewrite S1 in E |- *. replace (Z.max 0 (arity - (b - a - 1))) with 0 in E by lia.
            change (Z.to_nat 0) with O in E. cbn [fill_defaults bind] in E. replace (b + 0 - a) with (b - a) in E by lia. exact E.
          + cbn [bind] in E. replace (b + 0 - a) with (b - a) in E by lia. exact E. }
      destruct Ex as (_ & Ex & _). clear E. rename Ex into E.
      assert (Bd : match sig with Some _ => sig_check minargs arity (b - a - 1) | None => false end = false).
      { destruct Sg as [->|[S1 _]]; [reflexivity|]. destruct sig; auto. }
      rewrite Bd, <- Z.add_assoc, P1 in E. cbn [bind] in E. rewrite FP. cbn [bind]. rewrite A3. cbn [bind]. rewrite P2. cbn [bind]. rewrite Snc.
      replace ((a <=? 15) && (b - a <=? 4)) with true by lia.
      destruct (h_prim H P_call (v_w s) _) as [[w' v]| |] eqn:Ep; try discriminate E. cbn [bind fst snd] in E |- *.
      cbn [wrote writes ic ia]. rewrite (r_f _ _ _ R), (r_cu _ _ _ R) in E. fins. }
    destruct (match o with O_NEWLICK => true | _ => false end) eqn:Ol.
    { destruct o; try discriminate Ol. clear Ol Oc Sv. destruct Wf as (Wa & Wi & Wb).
      apply Forall_cons_iff in Rd as [Da Rd]. apply Forall_app in Rd as [Ri Rb]. cbn [wrote writes ic ia].
      destruct (rk _ _ _ a R Da ltac:(lia)) as (A1 & A2 & A3 & A4).
      assert (Gi : exists v, (if a <? b then rd (v_st s) (regbase cu f + (a + 1)) else Ok PN_NIL) = Ok v /\
                             (if a <? b then fget need B M (a + 1) else Ok PN_NIL) = Ok v).
      { destruct (a <? b) eqn:L1; [|eauto]. apply Forall_cons_iff in Ri as [Di _].
        destruct (rk _ _ _ (a + 1) R Di ltac:(lia)) as (Q1 & _ & Q3 & _). eauto. }
      assert (Gb : exists v, (if a + 1 <? b then rd (v_st s) (regbase cu f + b) else Ok PN_NIL) = Ok v /\
                             (if a + 1 <? b then fget need B M b else Ok PN_NIL) = Ok v).
      { destruct (a + 1 <? b) eqn:L1; [|eauto]. apply Forall_cons_iff in Rb as [Db _].
        destruct (rk _ _ _ b R Db ltac:(lia)) as (Q1 & _ & Q3 & _). eauto. }
      destruct Gi as (vi & G1 & G2), Gb as (vb & G3 & G4). rewrite ?G1, ?G3, A1 in E. cbn [bind] in E.
      rewrite A3. cbn [bind]. rewrite G2. cbn [bind]. rewrite G4. cbn [bind]. rewrite FP. cbn [bind].
      prim1 E. fins. }
    destruct (match o with O_GETTUPLE => true | _ => false end) eqn:Ot.
    { destruct o; try discriminate Ot. clear Ot Ol Oc Sv. destruct Wf as (Wa & Wb).
      apply Forall_cons_iff in Rd as [Da Rb]. cbn [wrote writes ic ia].
      destruct (rk _ _ _ a R Da ltac:(lia)) as (A1 & A2 & A3 & A4). rewrite A1 in E. cbn [bind] in E.
      rewrite A3. cbn [bind]. destruct (negb (Z.land b ASM_TPL_IMM =? 0)) eqn:Eb.
      - apply Forall_cons_iff in Rb as [Db _].
        destruct (rk _ _ _ (b - ASM_TPL_IMM) R Db ltac:(lia)) as (Q1 & Q2 & Q3 & _). rewrite Q1 in E. cbn [bind] in E.
        destruct (h_prim H P_tuple_at (v_w s) _) as [[w' v]| |] eqn:Ep; try discriminate E. cbn [bind fst snd] in E.
        destruct (Htup _ _ _ _ _ Ep) as (-> & t' & T1 & T2). rewrite T1. cbn [bind fst snd]. rewrite Q3. cbn [bind].
        rewrite T2. cbn [bind]. fins.
      - cbn [bind] in E. destruct (h_prim H P_tuple_at (v_w s) _) as [[w' v]| |] eqn:Ep; try discriminate E. cbn [bind fst snd] in E.
        destruct (Htup _ _ _ _ _ Ep) as (-> & t' & T1 & T2). rewrite T1. cbn [bind fst snd].
        replace ((0 <=? b) && (b <? ASM_TPL_IMM)) with true by lia.
        rewrite T2. cbn [bind]. fins. }
    destruct (match o with O_NAMED => true | _ => false end) eqn:On.
    { destruct o; try discriminate On. clear Ot Ol Oc On Sv. specialize (Sn eq_refl). cbn [ic ia ib wrote] in *. destruct Wf as (Wa & W13 & Wn & Wb).
      rewrite !Forall_cons_iff in Rd. destruct Rd as (Da & Dn & Db & _).
      destruct (rk _ _ _ a R Da ltac:(lia)) as (A1 & A2 & A3 & A4). destruct (rk _ _ _ (b - 1) R Dn ltac:(lia)) as (N1 & N2 & N3 & N4).
      destruct (rk _ _ _ b R Db ltac:(lia)) as (B1 & B2 & B3 & B4).
      rewrite A4, N4 in *. rewrite A1 in E. cbn [bind] in E. rewrite N1 in E. cbn [bind] in E.
      destruct (h_prim H P_sig_find (v_w s) _) as [[w' v]| |] eqn:Ep; try discriminate E. cbn [bind fst snd] in E, Sn.
      apply Forall_cons_iff in Sn as [[Sn1 Sn2] _]. destruct (0 <=? PN_INT v) eqn:Ev; [|discriminate E].
      rewrite B1 in E. cbn [bind] in E.
      replace (a + 2 <=? 15) with true by lia. rewrite A3. cbn [bind]. rewrite N3. cbn [bind]. rewrite B3. cbn [bind]. rewrite FP. cbn [bind].
      rewrite Hrt by discriminate. cbn [rt_spec]. rewrite Ep. cbn [bind fst snd].
      assert (E1 : u32 (PN_INT v) = PN_INT v) by (apply u32_in; unfold two32; lia). rewrite E1.
      assert (E2 : s32 (PN_INT v) = PN_INT v) by (rewrite <- E1 at 1; apply s32_u32; lia). rewrite E2.
      replace (PN_INT v <? 0) with false by lia. replace ((0 <=? PN_INT v) && (PN_INT v <? 2147483648)) with true by lia.
      replace (regbase cu f + a + PN_INT v + 2) with (regbase cu f + (a + 2 + PN_INT v)) in E by lia.
      fins. }
    clear Sn. revert Sv Hp.
    destruct o; try discriminate Oc; try discriminate Ol; try discriminate Ot; try discriminate On; try contradiction; cbn [wrote writes ic ia ib]; rewrite ?Forall_cons_iff in Rd;
      repeat match goal with Hd : _ /\ _ |- _ => destruct Hd end; intros Sv Hp;
      repeat match goal with Hd : D ?k = true |- _ => rdk1 R E Sv Hd k end;
      repeat match goal with Q : fget _ _ _ _ = _ |- _ => rewrite ?Q; revert Q end; intros; cbn [bind];
      try (match type of E with (do st <- wr _ _ _; _) = _ => fins | (do r <- h_prim _ _ _ _; _) = _ => prim1 E; try fins end);
      idtac.
    - (* NONE *) injection E as <-. exists M, JNext. split; [reflexivity|]. split.
      + apply (rel_same D s M _ _ _ R).
      + cbn [nxt v_pos]. apply u32_in. lia.
    - (* LOADK *) destruct (rd (b_values f) b) as [v| |] eqn:Ev; try discriminate E. cbn [bind] in E.
      pose proof (Hvals _ _ Ev) as Wv. destruct (Hval (v_w s) b v Ev) as (vt & Q1 & Q2). apply rd_inv in Ev as [Ev _].
      replace ((0 <=? b) && (b <? 65536)) with true by lia. rewrite Q1. cbn [bind fst snd]. rewrite Q2. cbn [bind]. fins.
    - (* SELF *) destruct (rks _ _ _ R) as (Q1 & Q2 & Q3). rewrite Q1 in E. cbn [bind] in E. rewrite Q3. cbn [bind]. fins.
    - (* GETLOCAL *) match goal with Hd : D (regs + b) = true |- _ => destruct (rkl _ _ _ b R Hd ltac:(lia)) as (Q1 & Q2 & Q3 & Q4) end.
      rewrite Q1 in E. cbn [bind] in E. rewrite Q4 in Sv. unfold getlocal in E. rewrite Sv in E. cbn [bind fst snd] in E.
      rewrite Q3. cbn [bind]. fins.
    - (* SETLOCAL *) destruct (rd (v_st s) (cu + upvalsize f + b)) as [ol| |] eqn:Eo; try discriminate E. cbn [bind] in E.
      rewrite (locb b) in Eo by lia. apply rd_inv in Eo as [_ Eo]. unfold vval in Sv. rewrite Eo in Sv.
      unfold setlocal in E. rewrite Sv in E. cbn [bind fst snd] in E.
      rewrite (locb b) in E by lia. rewrite <- (r_f _ _ _ R), <- (r_cu _ _ _ R) in E.
      destruct (fin_set D s M (mkI O_NONE 0 0) (regs + b) _ _ s' R ltac:(lia) Wd Hp Hc E) as (M' & Q1 & Q2 & Q3).
      exists M', JNext. split; [exact Q1|]. split; [exact Q2|exact Q3].
    - (* SETTABLE *) injection E as <-. specialize (Sv _ _ Ep). cbn [snd] in Sv.
      rewrite fset_in by (unfold need; lia). cbn [bind]. eexists _, JNext. split; [reflexivity|]. split.
      + eapply rel_ext; [|apply (rel_same D s M _ _ _ R)]. intros ad. unfold setm. destruct (ad =? B + slot a) eqn:Ea; [|reflexivity].
        replace ad with (B + slot a) by lia. exact Sv.
      + cbn [nxt v_pos]. apply u32_in. lia.
    - (* SETPATH *) injection E as <-. eexists _, JNext. split; [reflexivity|]. split.
      + apply (rel_same D s M _ _ _ R).
      + cbn [nxt v_pos]. apply u32_in. lia.
    - (* ADD *) apply (math3_out O_ADD); auto; cbn; tauto.
    - (* SUB *) apply (math3_out O_SUB); auto; cbn; tauto.
    - (* MULT *) apply (math3_out O_MULT); auto; cbn; tauto.
    - (* DIV *) apply (math2_out O_DIV); auto; cbn; tauto.
    - (* REM *) apply (math2_out O_REM); auto; cbn; tauto.
    - (* POW *) cbn [binop] in E. rewrite Hrt by discriminate. cbn [rt_spec].
      destruct (h_prim H P_pow (v_w s) [M (B + slot a); M (B + slot b)]) as [[w' v]| |] eqn:Ep; try discriminate E.
      cbn [bind fst snd] in E |- *. fins.
    - (* NOT *) rewrite (jtest_PN _ Wd). 
      replace (if PN_TEST (M (B + slot a)) then PN_FALSE else PN_TRUE) with (PN_BOOL (negb (PN_TEST (M (B + slot a)))))
        by (destruct (PN_TEST (M (B + slot a))); reflexivity). fins.
    - (* EQ *) cbn [binop] in E. unfold eqcmp in E. rewrite Hrt by discriminate. cbn [rt_spec].
      destruct (PN_IS_PTR (M (B + slot a))).
      + destruct (h_prim H P_eq (v_w s) [M (B + slot a); M (B + slot b)]) as [[w' v]| |] eqn:Ep; try discriminate E.
        cbn [bind fst snd] in E |- *. fins.
      + cbn [bind fst snd] in E |- *. fins.
    - (* NEQ *) cbn [binop] in E. unfold eqcmp in E. rewrite Hrt by discriminate. cbn [rt_spec].
      destruct (PN_IS_PTR (M (B + slot a))).
      + destruct (h_prim H P_neq (v_w s) [M (B + slot a); M (B + slot b)]) as [[w' v]| |] eqn:Ep; try discriminate E.
        cbn [bind fst snd] in E |- *. fins.
      + cbn [bind fst snd] in E |- *. fins.
    - apply (cmp_out O_LT); auto; cbn; tauto.
    - apply (cmp_out O_LTE); auto; cbn; tauto.
    - apply (cmp_out O_GT); auto; cbn; tauto.
    - apply (cmp_out O_GTE); auto; cbn; tauto.
    - (* BITN *) subst b. rewrite PN_IS_INT_odd in E. rewrite Hrt by discriminate. cbn [rt_spec].
      destruct (Z.odd (M (B + slot a))) eqn:Od.
      + assert (En : num_bitn (M (B + slot a)) = u64 (two64 - 1 - M (B + slot a) + 1)).
        { unfold num_bitn. rewrite <- PN_IS_INT_odd in Od. apply PN_NUM_INT in Od; [|exact Wd].
          transitivity (u64 (two64 - 1 - PN_NUM (PN_INT (M (B + slot a))) + 1)); [|rewrite Od; reflexivity].
          rewrite jbitn_num. f_equal. }
        rewrite En in E. fins.
      + destruct (h_prim H P_bitn (v_w s) [M (B + slot a)]) as [[w' v]| |] eqn:Ep; try discriminate E.
        cbn [bind fst snd] in E |- *. fins.
    - (* JMP *) injection E as <-. exists M, JJump. split; [reflexivity|]. split.
      + apply (rel_same D s M _ _ _ R).
      + cbn [nxt v_pos]. exists a. split; [reflexivity|]. apply u32_in. lia.
    - (* TEST *) rewrite (jtest_PN _ Wd).
      change (if PN_TEST (M (B + slot a)) then PN_TRUE else PN_FALSE) with (PN_BOOL (PN_TEST (M (B + slot a)))). fins.
    - (* TESTJMP *) rewrite (jtest_PN _ Wd). injection E as <-. eexists M, _. split; [reflexivity|]. split.
      + apply (rel_same D s M _ _ _ R).
      + destruct (PN_TEST (M (B + slot a))); cbn [nxt v_pos]; [exists b; split; [reflexivity|]|]; apply u32_in; lia.
    - (* NOTJMP *) rewrite (jtest_PN _ Wd). injection E as <-. eexists M, _. split; [reflexivity|]. split.
      + apply (rel_same D s M _ _ _ R).
      + destruct (PN_TEST (M (B + slot a))); cbn [nxt v_pos negb]; [|exists b; split; [reflexivity|]]; apply u32_in; lia.
  Qed.
End Sim.
