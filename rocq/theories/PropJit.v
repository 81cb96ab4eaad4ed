(** C59: the machine code the x86-64 generator writes for a function and the
    interpreter return the same, and where they do not. *)
From Coq Require Import ZifyBool.
From Verif Require Import Base Arr GArr WordModel WordProofs NumModel NumProofs AsmModel SigModel ObjModel CompileModel VmModel VmMono
  SrcSpec CompileProofs CompileEq CompileExt SimTop PropCompile X86Model JitModel JitProofs JitSem JitLayout JitArith JitSim JitRun.
From Verif Require Toy.
Ltac Zify.zify_post_hook ::= Z.div_mod_to_equations.

(** ** The statement *)
(** The process around the generated code.  [rt g w args]: runtime function [g] in
    world [w] on the parameters it looks at; [nc w P x args]: calling closure [x].
    The functions are at their addresses and do what the interpreter's primitives
    do ([rt_spec], JitSim.v); the values vector of the function's closure [cl] holds
    its constants; everything is a 64-bit word. *)
Record runtime {W} (H : host W) (X : xhost W) (addr : cfun -> Z) (rt : cfun -> W -> list Z -> res (W * Z))
    (nc : W -> Z -> Z -> list Z -> res (W * Z)) (P cl : Z) (f : pb) : Prop := mkRuntime {
  ru_addr : forall g, 0 <= addr g < two64;
  ru_call : forall g w L, length L = 6%nat -> xh_call X w (addr g) L = rt g w (map (fun n => nth n L 0) (apos g));
  ru_prim : forall g w args, g <> F_values -> g <> F_fwd -> rt g w (P :: args) = rt_spec H g w args;
  ru_values : forall w b v, rd (b_values f) b = Ok v ->
    exists vt, rt F_values w [P; cl] = Ok (w, vt) /\ xh_load X w (u64 (vt + (16 + b * 8))) = Ok v;
  ru_tuple : forall w t i w' v, h_prim H P_tuple_at w [t; PN_NUM i] = Ok (w', v) ->
    w' = w /\ exists t', rt F_fwd w [t] = Ok (w, t') /\ xh_load X w (u64 (t' + (16 + i * 8))) = Ok v;
  ru_native : forall w p x l r, nc w p x l = Ok r -> native_call X w p x l r;
  ru_word : forall p w l w' v, h_prim H p w l = Ok (w', v) -> 0 <= v < two64;
  ru_const : forall b v, rd (b_values f) b = Ok v -> 0 <= v < two64 }.

(** The state in which C calls the generated code: first byte, return address at
    [S0], arguments in the registers of the calling convention. *)
Record called {W} (x : xst W) (S0 P cl self : Z) (args : list Z) (w : W) : Prop := mkCalled {
  ca_pc : x_pc x = 0; ca_sp : x_r x RSP = S0; ca_P : x_r x RDI = P; ca_cl : x_r x RSI = cl;
  ca_self : x_r x RDX = self; ca_w : x_w x = w;
  ca_args : forall k, 0 <= k < zlen args -> x_r x (argreg (3 + k)) = znth args k;
  ca_words : 0 <= self < two64 /\ Forall (fun v => 0 <= v < two64) args }.
(** words of the frame, and the stack below [S0] big enough and aligned as the
    calling convention says *)
Definition frame_words (f : pb) : Z := b_stack f + zlen (b_locals f) + 3.
Definition stack_ok (f : pb) (protoargs S0 : Z) : Prop :=
  1 <= b_stack f /\ 0 <= protoargs /\ frame_words f + protoargs < 268435454 /\
  S0 mod 16 = 8 /\ (frame_words f + protoargs) * 8 + 24 <= S0 < two64.
(** The machine returns [v] from this call: whatever fuel is enough, it stops at the
    return instruction with the stack pointer at the return address, [v] in rax,
    world [w'], the caller's rbp, and the caller's part of the stack unchanged. *)
Definition machine_returns {W} (X : xhost W) (code : list Z) (S0 : Z) (x : xst W) (w' : W) (v : Z) : Prop :=
  exists n x', (forall k, xrun X code S0 (n + k) x = Ok x') /\ x_r x' RAX = v /\ x_w x' = w' /\
    x_r x' RSP = S0 /\ x_r x' RBP = x_r x RBP /\ forall ad, S0 <= ad -> x_m x' ad = x_m x ad.

Lemma xrun_more {W} (X : xhost W) code S0 n : forall x x', xrun X code S0 n x = Ok x' -> forall k, xrun X code S0 (n + k) x = Ok x'.
Proof.
  induction n as [|n IH]; intros x x' E k; [discriminate E|]. cbn [plus xrun] in *.
  destruct (xstep X code S0 x) as [[s|s]| |]; try discriminate E; auto.
Qed.

Lemma loop_len addr regs start is : forall pos buf offs jmps code,
  jit_loop addr regs start is pos buf offs jmps = Ok code -> 0 <= pos -> pos + zlen is <= Z.max pos JUMPS_MAX.
Proof.
  induction is as [|i is IH]; intros pos buf offs jmps code E Hp.
  - change (zlen (@nil instr)) with 0. lia.
  - rewrite zlen_cons'. cbn [jit_loop] in E. destruct (JUMPS_MAX <=? pos) eqn:K; [discriminate E|].
    assert (G : forall b o j, jit_loop addr regs start is (pos + 1) b o j = Ok code -> pos + (1 + zlen is) <= Z.max pos JUMPS_MAX).
    { intros b o j Q. apply IH in Q; lia. }
    destruct (jump_of i); destruct (jit_op addr regs start i 0); try discriminate E.
    + destruct (pos <=? pos + z).
      * destruct (JUMPS_MAX <=? zlen jmps); [discriminate E|]. eapply G; exact E.
      * destruct (grd (offs ++ [zlen buf]) (pos + z + 1)); cbn [bind] in E; try discriminate E.
        match type of E with match ?c with _ => _ end = _ => destruct c; try discriminate E end. eapply G; exact E.
    + eapply G; exact E.
Qed.
(** The generator's tables bound the functions it takes. *)
Theorem C59_limit addr is_str f protoargs code : jit_proto addr is_str f protoargs = Ok code ->
  zlen (b_code f) <= 1024 /\ zlen (jit_names is_str 0 (b_sig f)) <= 3.
Proof.
  unfold jit_proto. destruct (3 <? zlen (jit_names is_str 0 (b_sig f))) eqn:E; [discriminate|].
  destruct (_ && _); [discriminate|]. intros K. apply loop_len in K; [|lia]. unfold JUMPS_MAX in K. lia.
Qed.

Lemma mask16 x : Z.land x (-16) = x - x mod 16.
Proof.
  change (-16) with (Z.lnot (Z.ones 4)). rewrite <- Z.ldiff_land, Z.ldiff_ones_r by lia.
  rewrite Z.shiftl_mul_pow2, Z.shiftr_div_pow2 by lia. change (2 ^ 4) with 16. lia.
Qed.
Lemma sp_ok f protoargs S0 : stack_ok f protoargs S0 ->
  let Sp := S0 - 8 - Z.land ((frame_words f + protoargs) * 8 + 15) (-16) in
  Sp mod 16 = 0 /\ 0 <= Sp /\ Sp <= S0 - 8 - frame_words f * 8.
Proof. intros (A1 & A2 & A3 & A4 & A5) Sp. subst Sp. rewrite mask16. lia. Qed.

Section Same.
  Context {W : Type} (H : host W) (X : xhost W) (tbl : list pb) (is_str : Z -> bool) (STR0 pid : Z) (f : pb).
  Context (addr : cfun -> Z) (rt : cfun -> W -> list Z -> res (W * Z)) (nc : W -> Z -> Z -> list Z -> res (W * Z)) (P cl : Z).
  Context (protoargs : Z) (code : list Z) (S0 : Z).
  (** The interpreter started on function [pid] of the table and the machine started
      on the code generated for it.  If every operation the interpreter executes is
      one on which both engines agree ([arun], JitRun.v: registers are read after
      they were written; integer results in range, division of numbers below 2^30
      with a non-negative quotient; comparisons of integers of the same sign; calls
      of native closures with enough arguments), both return the same value and
      leave the same world. *)
  Theorem C59_same_result self args (w : W) fs s0 x w' v :
    proto_at tbl pid = Ok f -> b_upvals f = [] -> is_str COLON = false ->
    jit_proto addr is_str f protoargs = Ok code -> zlen code < 2147483648 ->
    runtime H X addr rt nc P cl f -> stack_ok f protoargs S0 ->
    called x S0 P cl self (match args with Some l => l | None => [] end) w ->
    match args with
    | Some l => zlen (jit_names is_str 0 (b_sig f)) <= zlen l
    | None => jit_names is_str 0 (b_sig f) = []
    end ->
    vm_start tbl is_str pid self (match args with Some l => ATuple l | None => ANone end) [] w fs = Ok (SRun s0) ->
    arun H tbl is_str STR0 f nc P (D0 is_str f) s0 w' v ->
    (exists N fs', forall k, potion_vm H tbl is_str STR0 (N + k) pid self args [] w fs = Ok (w', fs', v)) /\
    machine_returns X code S0 x w' v.
  Proof.
    intros Hf Hup Hcol HJ Hc R St C Ha E A. pose proof (C59_limit _ _ _ _ _ HJ) as (L1 & L2).
    pose proof (sp_ok _ _ _ St) as Q. cbv zeta in Q. destruct Q as (Q1 & Q2 & Q3).
    destruct R as [R1 R2 R3 R4 R8 R5 R6 R7]. destruct C as [C1 C2 C3 C4 C5 C6 C7 (C8 & C9)]. destruct St as (T1 & T2 & T3 & T4 & T5).
    unfold jit_proto in HJ. replace (3 <? zlen (jit_names is_str 0 (b_sig f))) with false in HJ by lia.
    destruct (_ && _) in HJ; [discriminate HJ|]. rewrite Hup in HJ. change (zlen (@nil Z)) with 0 in HJ.
    rewrite Z.add_0_r in HJ. unfold frame_words in *.
    assert (R4' : forall w b v, rd (b_values f) b = Ok v ->
      exists vt, rt F_values w [P; cl] = Ok (w, vt) /\ xh_load X w (u64 (u64 (vt + (16 + b * 8)) + 0)) = Ok v).
    { intros w1 b v1 Q. destruct (R4 w1 b v1 Q) as (vt & V1 & V2). exists vt. split; [exact V1|]. rewrite Z.add_0_r.
      replace (u64 (u64 (vt + (16 + b * 8)))) with (u64 (vt + (16 + b * 8))); [exact V2|]. unfold u64, two64. lia. }
    destruct (whole H X tbl is_str STR0 pid f Hf Hup Hcol R6 R7 addr R1 rt nc P cl R5 R2 R3 R4' R8 T1
               ltac:(unfold localsize; lia) code Hc ltac:(unfold two32; lia) S0 (S0 - 8)
               (S0 - 8 - Z.land ((b_stack f + zlen (b_locals f) + 3 + protoargs) * 8 + 15) (-16)) ltac:(lia) Q1
               ltac:(lia) ltac:(lia) Q2 Q3 _ HJ protoargs T2 ltac:(unfold localsize; lia) eq_refl self args w fs s0 x w' v)
      as (V & n & x' & X1 & X2 & X3 & X4 & X5 & X6); auto.
    - destruct args as [l|]; [|exact Ha]. intros k Hk. split; [apply C7; lia|]. unfold znth.
      rewrite Forall_forall in C9. apply C9. apply nth_In. unfold zlen in *. lia.
    - split; [exact V|]. exists n, x'. split; [apply xrun_more; exact X1|]. auto.
  Qed.
End Same.

(** From the source: a program (SrcSpec.v) whose meaning is [v], compiled to bytecode
    and then to machine code, returns [v] from the machine. *)
Theorem C59_source_to_machine {W} (H : host W) (X : xhost W) chr0 is_str STR0 k es m t d self w w' v
    addr rt nc P cl protoargs code S0 s0 x w1 v1 :
  program_ok chr0 is_str es -> source_compile chr0 k (program es) = Ok (m, t) -> fits (t ++ [m]) d -> truth self = true ->
  ((forall w v, h_isref H w v = false) \/
   (forall l ps b, In (l, (ps, b)) (fns_all es) -> forall x, In x (sets_all b) -> memb x ps = true)) ->
  means H es d self w w' v ->
  is_str COLON = false ->
  jit_proto addr is_str m protoargs = Ok code -> zlen code < 2147483648 ->
  runtime H X addr rt nc P cl m -> stack_ok m protoargs S0 -> called x S0 P cl self [] w ->
  vm_start (t ++ [m]) is_str (zlen t) self ANone [] w (start_stack (t ++ [m])) = Ok (SRun s0) ->
  arun H (t ++ [m]) is_str STR0 m nc P (D0 is_str m) s0 w1 v1 ->
  machine_returns X code S0 x w' v.
Proof.
  intros PO SC FT TS HL ME Hcol HJ Hc R St C E A.
  assert (Hm : b_upvals m = [] /\ b_sig m = []).
  { pose proof PO as ((L' & WF) & (n' & LB) & ND & _).
    destruct (source_compile_eq chr0 k es L' m t WF ND SC) as [-> _]. split.
    - apply (compiled chr0 es L' n' WF LB).
    - unfold cprog. change (b_sig (c_f (cexps es 0 (PN_REG 0 (mkC (pb0 [] []) [] [] None)))) = []).
      destruct cexp_ext as (_ & K & _). destruct (proj1 (K es) 0 (PN_REG 0 (mkC (pb0 [] []) [] [] None))). assumption. }
  destruct Hm as [Hup Hsig].
  assert (Hf : proto_at (t ++ [m]) (zlen t) = Ok m).
  { unfold proto_at. unfold grd, gnth, zlen. replace (Z.of_nat (length t) <? 0) with false by lia. rewrite Nat2Z.id, nth_error_app2, Nat.sub_diag by lia. reflexivity. }
  destruct (C59_same_result H X (t ++ [m]) is_str STR0 (zlen t) m addr rt nc P cl protoargs code S0 self None w (start_stack (t ++ [m])) s0 x w1 v1 Hf Hup Hcol HJ Hc R St C) as ((N & fs' & V) & M); auto.
  { rewrite Hsig. reflexivity. }
  destruct (C47_programs_with_functions H chr0 is_str STR0 k es m t d self w w' v) as (fs2 & (N2 & K) & _); auto.
  specialize (V N2). rewrite K in V by lia. injection V as E1 E2 E3. subst w1 v1. exact M.
Qed.

(** ** What the machine code of  (x, y): x o y  computes, for all integers *)
Definition bin_fun (o : opc) (nx ny : Z) : pb :=
  mkPb [mkI O_GETLOCAL 0 0; mkI O_GETLOCAL 1 1; mkI o 0 1; mkI O_RETURN 0 0] [] [nx; ny] [] [] [] [nx; ny] 2.

Lemma setm_eq m a v : setm m a v a = v.
Proof. unfold setm. rewrite Z.eqb_refl. reflexivity. Qed.
Lemma setm_ne m a b v : b <> a -> setm m a v b = m b.
Proof. intros N. unfold setm. replace (b =? a) with false by lia. reflexivity. Qed.

Section Bin.
  Context {W : Type} (H : host W) (X : xhost W) (is_str : Z -> bool) (o : opc) (nx ny : Z).
  Context (addr : cfun -> Z) (rt : cfun -> W -> list Z -> res (W * Z)) (nc : W -> Z -> Z -> list Z -> res (W * Z)) (P cl : Z).
  Context (protoargs : Z) (code : list Z) (S0 : Z).
  Notation f := (bin_fun o nx ny).
  Lemma bin_run self a b (w w' : W) v x :
    is_str nx = true -> is_str ny = true -> nx <> ny -> nx <> COLON -> jump_of (mkI o 0 1) = None -> is_call (mkI o 0 1) = false ->
    jit_proto addr is_str f protoargs = Ok code -> zlen code < 2147483648 ->
    runtime H X addr rt nc P cl f -> stack_ok f protoargs S0 -> called x S0 P cl self [a; b] w ->
    (forall B M, M (B + slot 0) = a -> M (B + slot 1) = b -> M (B + slot 4) = P ->
       jsem rt (xh_load X) nc 2 7 B (mkI o 0 1) w M = Ok (w', setm M (B + slot 0) v, JNext)) ->
    machine_returns X code S0 x w' v.
  Proof.
    intros Sx Sy Nxy Nc Jn Jc HJ Hc R St C Op. pose proof (C59_limit _ _ _ _ _ HJ) as (L1 & L2).
    pose proof (sp_ok _ _ _ St) as Q. cbv zeta in Q. destruct Q as (Q1 & Q2 & Q3).
    destruct R as [R1 R2 R3 R4 R8 R5 R6 R7]. destruct C as [C1 C2 C3 C4 C5 C6 C7 (C8 & C9)]. destruct St as (T1 & T2 & T3 & T4 & T5).
    assert (En : jit_names is_str 0 (b_sig f) = [nx; ny]).
    { cbn [bin_fun b_sig jit_names]. rewrite Sx, Sy. change (0 =? COLON) with false. replace (nx =? COLON) with false by lia. reflexivity. }
    unfold jit_proto in HJ. replace (3 <? zlen (jit_names is_str 0 (b_sig f))) with false in HJ by lia.
    replace (existsb is_call (b_code f)) with false in HJ by (cbn [bin_fun b_code existsb]; rewrite Jc; reflexivity).
    cbn [andb] in HJ. change (zlen (b_upvals f)) with 0 in HJ. rewrite Z.add_0_r in HJ. unfold frame_words in *.
    assert (R4' : forall w b v, rd (b_values f) b = Ok v ->
      exists vt, rt F_values w [P; cl] = Ok (w, vt) /\ xh_load X w (u64 (u64 (vt + (16 + b * 8)) + 0)) = Ok v).
    { intros w1 k v1 Q. exfalso. cbn [bin_fun b_values] in Q. apply rd_inv' in Q as [Q _]. change (zlen (@nil Z)) with 0 in Q. lia. }
    set (M1 := pstore f (S0 - 8) (M_entry f P cl (S0 - 8) (x_m x) (x_r x RBP) self) (znth [a; b]) 0 [nx; ny]).
    assert (EM : M1 = setm (setm (M_entry f P cl (S0 - 8) (x_m x) (x_r x RBP) self) (S0 - 8 + slot 2) a) (S0 - 8 + slot 3) b).
    { unfold M1. cbn [pstore bin_fun b_locals vfind b_stack]. rewrite Z.eqb_refl. replace (nx =? ny) with false by lia.
      rewrite Z.eqb_refl. reflexivity. }
    assert (E1 : pstore f (S0 - 8) (M_entry f P cl (S0 - 8) (x_m x) (x_r x RBP) self) (znth [a; b]) 0 [nx; ny] = M1) by reflexivity.
    clearbody M1. assert (E4 : M1 (S0 - 8 + slot 4) = P).
    { rewrite EM. unfold M_entry, slot. cbn [bin_fun b_stack]. change (localsize f) with 2.
      rewrite !setm_ne by lia. cbn [Z.add]. rewrite setm_eq. reflexivity. }
    assert (E2 : M1 (S0 - 8 + slot 2) = a). { rewrite EM. unfold slot. rewrite setm_ne by lia. apply setm_eq. }
    assert (E3 : M1 (S0 - 8 + slot 3) = b). { rewrite EM. unfold slot. apply setm_eq. }
    assert (EB : M1 (S0 - 8) = x_r x RBP).
    { rewrite EM. unfold M_entry, slot. rewrite !setm_ne by lia. cbn [bin_fun b_stack]. change (localsize f) with 2.
      rewrite !setm_ne by lia. rewrite setm_eq. reflexivity. }
    assert (EH : forall ad, S0 <= ad -> M1 ad = x_m x ad).
    { intros ad L. rewrite EM. unfold M_entry, slot. rewrite !setm_ne by lia. cbn [bin_fun b_stack]. change (localsize f) with 2.
      rewrite !setm_ne by lia. reflexivity. }
    clear EM.
    set (M2 := setm M1 (S0 - 8 + slot 0) a). set (M3 := setm M2 (S0 - 8 + slot 1) b).
    set (M4 := setm M3 (S0 - 8 + slot 0) v).
    destruct (whole_jit H X is_str f R6 R7 addr R1 rt nc P cl R5 R2 R3 R4' R8 T1
               ltac:(unfold localsize; lia) code Hc S0 (S0 - 8)
               (S0 - 8 - Z.land ((b_stack f + zlen (b_locals f) + 3 + protoargs) * 8 + 15) (-16)) ltac:(lia) Q1
               ltac:(lia) ltac:(lia) Q2 Q3 _ HJ protoargs T2 ltac:(unfold localsize; lia) eq_refl self (znth [a; b]) x w' M4 v)
      as (n & x' & X1 & X2 & X3 & X4 & X5 & X6); auto.
    - intros k Hk. rewrite En in Hk. apply C7. exact Hk.
    - rewrite En, E1, C6.
      eapply jrun_next with (i := mkI O_GETLOCAL 0 0) (w1 := w) (M1 := M2); [reflexivity|intros r Q; discriminate Q| |].
      { cbn [jsem ic ia ib]. change (localsize f) with 2. cbn [bin_fun b_stack]. unfold fget, fset.
        replace (M1 (S0 - 8 + slot (2 + 0))) with a by exact (eq_sym E2). reflexivity. }
      eapply jrun_next with (i := mkI O_GETLOCAL 1 1) (w1 := w) (M1 := M3); [reflexivity|intros r Q; discriminate Q| |].
      { cbn [jsem ic ia ib]. change (localsize f) with 2. cbn [bin_fun b_stack]. unfold fget, fset.
        replace (M2 (S0 - 8 + slot (2 + 1))) with b. reflexivity. unfold M2. rewrite setm_ne by (unfold slot; lia). exact (eq_sym E3). }
      eapply jrun_next with (i := mkI o 0 1) (w1 := w') (M1 := M4); [reflexivity|intros r Q; rewrite Jn in Q; discriminate Q| |].
      { apply Op; unfold M3, M2.
        - rewrite setm_ne by (unfold slot; lia). apply setm_eq.
        - apply setm_eq.
        - rewrite !setm_ne by (unfold slot; lia). exact E4. }
      eapply jrun_ret with (i := mkI O_RETURN 0 0); [reflexivity|reflexivity|].
      cbn [jsem ic ia ib]. unfold fget. change (localsize f) with 2. cbn [bin_fun b_stack].
      replace (M4 (S0 - 8 + slot 0)) with v; [reflexivity|]. unfold M4. symmetry. apply setm_eq.
    - exists n, x'. split; [apply xrun_more; exact X1|]. repeat (split; [assumption|]). split.
      + rewrite X5. unfold M4, M3, M2, slot. rewrite !setm_ne by lia. exact EB.
      + intros ad L. rewrite X6 by exact L. unfold M4, M3, M2, slot. rewrite !setm_ne by lia. apply EH. exact L.
  Qed.
End Bin.

(** The integer the machine code computes: + wraps around at 63 bits; - and * are
    exact or leave the number range (None: the message is sent); / and % work on
    the low 31 bits and give an unsigned 31-bit result; the comparisons are the
    mathematical ones. *)
Definition low_signed (i : Z) : Z := (i + 2^30) mod 2^31 - 2^30.
Definition in_range (i : Z) : bool := (- 2^62 <=? i) && (i <? 2^62).
Definition machine_int (o : opc) (i j : Z) : option Z :=
  let num z := Some (PN_NUM z) in
  let bool b := Some (if b : bool then PN_TRUE else PN_FALSE) in
  match o with
  | O_ADD => num (i + j)
  | O_SUB => if in_range (i - j) then num (i - j) else None
  | O_MULT => if in_range (i * j) then num (i * j) else None
  | O_DIV => if low_signed j =? 0 then None else num (Z.quot (low_signed i) (low_signed j) mod 2^31)
  | O_REM => if low_signed j =? 0 then None else num (Z.rem (low_signed i) (low_signed j) mod 2^31)
  | O_LT => bool (i <? j)
  | O_LTE => bool (i <=? j)
  | O_GT => bool (j <? i)
  | O_GTE => bool (j <=? i)
  | O_EQ => bool (i =? j)
  | O_NEQ => bool (negb (i =? j))
  | _ => None
  end.

Section BinExact.
  Context {W : Type} (H : host W) (X : xhost W) (is_str : Z -> bool) (o : opc) (nx ny : Z).
  Context (addr : cfun -> Z) (rt : cfun -> W -> list Z -> res (W * Z)) (nc : W -> Z -> Z -> list Z -> res (W * Z)) (P cl : Z).
  Context (protoargs : Z) (code : list Z) (S0 : Z).
  Context (Sx : is_str nx = true) (Sy : is_str ny = true) (Nxy : nx <> ny) (Nc : nx <> COLON).
  Context (HJ : jit_proto addr is_str (bin_fun o nx ny) protoargs = Ok code) (Hc : zlen code < 2147483648).
  Context (R : runtime H X addr rt nc P cl (bin_fun o nx ny)) (St : stack_ok (bin_fun o nx ny) protoargs S0).
  Theorem C59_integers_exact self i j (w : W) x v :
    in_range i = true -> in_range j = true -> called x S0 P cl self [PN_NUM i; PN_NUM j] w ->
    machine_int o i j = Some v -> machine_returns X code S0 x w v.
  Proof.
    intros Hi Hj C E. assert (Ri : - two62 <= i < two62) by (unfold in_range, two62 in *; lia).
    assert (Rj : - two62 <= j < two62) by (unfold in_range, two62 in *; lia).
    assert (K : jump_of (mkI o 0 1) = None /\ is_call (mkI o 0 1) = false).
    { destruct o; try discriminate E; split; reflexivity. }
    destruct K as [K1 K2].
    apply (bin_run H X is_str o nx ny addr rt nc P cl protoargs code S0 self (PN_NUM i) (PN_NUM j) w w v x Sx Sy Nxy Nc K1 K2 HJ Hc R St C).
    intros B M E0 E1 E4.
    assert (Rep : forall z, repb z = in_range z) by (intros; reflexivity).
    assert (Lo : forall z, low31 z = low_signed z) by (intros; reflexivity).
    pose proof (ru_prim _ _ _ _ _ _ _ _ R) as RP.
    assert (NP : PN_IS_PTR (PN_NUM i) = false).
    { unfold PN_IS_PTR. rewrite PN_NUM_is_int. reflexivity. }
    assert (QN : (PN_NUM i =? PN_NUM j) = (i =? j)).
    { destruct (Z.eq_dec i j) as [->|N]; [rewrite !Z.eqb_refl; reflexivity|].
      destruct (PN_NUM i =? PN_NUM j) eqn:Q; [|symmetry; apply Z.eqb_neq; exact N]. exfalso. apply N. apply PN_NUM_inj; try assumption; lia. }
    destruct o; cbn [machine_int] in E; try discriminate E; cbn [jsem ic ia ib];
      unfold fget, fset; cbn [Z.leb Z.ltb Z.compare Pos.compare Pos.compare_cont andb bind ic]; rewrite E0, E1; cbn [bind]; rewrite ?odd_NUM; cbn [andb].
    - rewrite jmath_add. injection E as <-. reflexivity.
    - rewrite jmath_sub, Rep by assumption. destruct (in_range (i - j)); [|discriminate E]. injection E as <-. reflexivity.
    - rewrite jmath_mult, Rep by assumption. destruct (in_range (i * j)); [|discriminate E]. injection E as <-. reflexivity.
    - rewrite jdiv_num, !Lo. destruct (low_signed j =? 0); [discriminate E|]. injection E as <-. reflexivity.
    - rewrite jdiv_num, !Lo. destruct (low_signed j =? 0); [discriminate E|]. injection E as <-. reflexivity.
    - change (7 - 3) with 4. rewrite E4. cbn [Z.leb Z.ltb Z.compare Pos.compare Pos.compare_cont andb bind]. rewrite RP by discriminate. cbn [rt_spec]. rewrite NP, QN. cbn [bind fst snd].
      injection E as <-. reflexivity.
    - change (7 - 3) with 4. rewrite E4. cbn [Z.leb Z.ltb Z.compare Pos.compare Pos.compare_cont andb bind]. rewrite RP by discriminate. cbn [rt_spec]. rewrite NP, QN. cbn [bind fst snd].
      injection E as <-. reflexivity.
    - rewrite jcmp_num by assumption. destruct (i <? j); injection E as <-; reflexivity.
    - rewrite jcmp_num by assumption. destruct (i <=? j); injection E as <-; reflexivity.
    - rewrite jcmp_num by assumption. destruct (j <? i); injection E as <-; reflexivity.
    - rewrite jcmp_num by assumption. destruct (j <=? i); injection E as <-; reflexivity.
  Qed.
End BinExact.

(** ** A concrete process *)
(** The world counts the calls of a native closure CLO that returns its argument. *)
Definition CLO : Z := 16777216.
Definition CLO_code : Z := 2097152.
(** a tuple (5, 15, 25), moved from TUP to TUP2 *)
Definition TUP : Z := 33554432.
Definition TUP2 : Z := 33558528.
Definition all_cf : list cfun :=
  [F_values; F_define_global; F_tuple_empty; F_tuple_push; F_table_at; F_table_set; F_obj_get; F_obj_set; F_obj_add; F_obj_sub;
   F_obj_mult; F_obj_div; F_obj_rem; F_num_pow; F_vm_eq; F_vm_neq; F_obj_bitn; F_def_method; F_bind; F_message; F_get_callset;
   F_vm_class; F_object_new; F_get_call; F_lick; F_fwd; F_sig_find].
Definition cf_eqb (f g : cfun) : bool := if (ltac:(decide equality) : {f = g} + {f <> g}) then true else false.
Fixpoint cf_pos (l : list cfun) (g : cfun) : Z := match l with [] => 0 | h :: l => if cf_eqb h g then 0 else 1 + cf_pos l g end.
Definition ex_addr (g : cfun) : Z := 65536 + 16 * cf_pos all_cf g.
Definition word (v : Z) : bool := (0 <=? v) && (v <? two64).
Definition ex_prim (p : prim) (w : Z) (args : list Z) : res (Z * Z) :=
  match p, args with
  | P_call, [x; self; a] => if (x =? CLO) && word a then Ok (w + 1, a) else UB
  | P_num O_ADD, _ => Ok (w, PN_NUM 77)
  | P_num O_SUB, _ => Ok (w, PN_NUM 78)
  | P_sig_find, [x; n] => if x =? CLO then Ok (w + 1000, PN_NUM (if n =? PN_NUM 9 then 0 else -1)) else UB
  | P_lick, [n; i; t] => Ok (w + 100, u64 (n + 2 * i + 4 * t))
  | P_tuple_at, [t; i] => if ((t =? TUP) || (t =? TUP2)) && (0 <=? PN_INT i) && (PN_INT i <? 3) then Ok (w, PN_NUM (5 + 10 * PN_INT i)) else UB
  | _, _ => UB
  end.
Definition ex_kind (w v : Z) : kind := if v =? CLO then KNative None 0 0 else KOther.
Definition ex_host : host Z := mkHost Z ex_prim ex_kind (fun _ _ => false) (fun _ v => PN_IS_INT v) (fun _ v => v =? CLO).
Definition ex_rt (g : cfun) (w : Z) (args : list Z) : res (Z * Z) :=
  match g with F_values => Ok (w, 1048576) | F_fwd => match args with [t] => Ok (w, if t =? TUP then TUP2 else t) | _ => UB end | _ => rt_spec ex_host g w (tl args) end.
Definition ex_nc (w p x : Z) (l : list Z) : res (Z * Z) := match l with [self; a] => ex_prim P_call w (x :: l) | _ => UB end.
Definition ex_call (w a : Z) (L : list Z) : res (Z * Z) :=
  match find (fun g => ex_addr g =? a) all_cf with
  | Some g => ex_rt g w (map (fun n => nth n L 0) (apos g))
  | None => if a =? CLO_code then ex_prim P_call w [nth 1 L 0; nth 2 L 0; nth 3 L 0] else UB
  end.
Definition ex_load (w a : Z) : res Z := if a =? CLO then Ok PN_TCLOSURE else if a =? CLO + 8 then Ok CLO_code
  else if a =? TUP2 + 16 then Ok (PN_NUM 5) else if a =? TUP2 + 24 then Ok (PN_NUM 15) else if a =? TUP2 + 32 then Ok (PN_NUM 25) else UB.
Definition ex_X : xhost Z := mkXH Z ex_call ex_load (fun _ _ _ => UB) (fun _ _ _ => true) (fun _ _ => 12345) (fun _ => mkF true true true) (fun _ _ => 54321).
Definition ex_P : Z := 4096.
Definition ex_cl : Z := 8192.

Lemma ex_runtime f : b_values f = [] -> runtime ex_host ex_X ex_addr ex_rt ex_nc ex_P ex_cl f.
Proof.
  intros V. assert (NV : forall b v, rd (b_values f) b = Ok v -> False).
  { intros b v Q. rewrite V in Q. apply rd_inv' in Q as [Q _]. change (zlen (@nil Z)) with 0 in Q. lia. }
  split.
  - intros []; vm_compute; split; congruence.
  - intros g w L _. destruct g; reflexivity.
  - intros g w args N N2. destruct g; try reflexivity; contradiction.
  - intros w b v Q. destruct (NV b v Q).
  - intros w t i w' v Q. cbn [ex_host h_prim ex_prim] in Q.
    destruct (((t =? TUP) || (t =? TUP2)) && (0 <=? PN_INT (PN_NUM i)) && (PN_INT (PN_NUM i) <? 3)) eqn:E; [|discriminate Q].
    injection Q as <- <-. split; [reflexivity|]. exists TUP2. split.
    + cbn [ex_rt]. destruct (t =? TUP) eqn:Et; [reflexivity|]. replace t with TUP2 by lia. reflexivity.
    + assert (Ei : PN_INT (PN_NUM i) = 0 \/ PN_INT (PN_NUM i) = 1 \/ PN_INT (PN_NUM i) = 2) by lia.
      assert (Ea : u64 (TUP2 + (16 + i * 8)) = TUP2 + 16 + 8 * PN_INT (PN_NUM i)).
      { clear E. unfold PN_INT in *. rewrite Z.shiftr_div_pow2 in * by lia. change (2 ^ 1) with 2 in *.
        unfold PN_NUM, s64, u64, two63, two64, TUP2 in *. lia. }
      unfold ex_X, xh_load, ex_load. rewrite Ea. destruct Ei as [->|[->| ->]]; reflexivity.
  - intros w p x l r Q. unfold ex_nc in Q. destruct l as [|self [|a [|]]]; try discriminate Q. cbn [ex_prim] in Q.
    destruct (x =? CLO) eqn:E; [|discriminate Q]. apply Z.eqb_eq in E. subst x.
    split; [reflexivity|]. split; [discriminate|]. split; [exists PN_TCLOSURE; split; reflexivity|].
    exists CLO_code. split; [reflexivity|]. intros L HL HF.
    destruct L as [|l0 [|l1 [|l2 [|l3 L]]]]; try discriminate HL. cbn in HF. injection HF as -> -> -> ->.
    unfold ex_X, xh_call, ex_call. change (find (fun g => ex_addr g =? CLO_code) all_cf) with (@None cfun). cbn [nth]. exact Q.
  - intros p w l w' v Q. cbn [ex_host h_prim] in Q. unfold ex_prim in Q.
    destruct p; try discriminate Q.
    + destruct o; try discriminate Q; injection Q as <- <-; apply PN_NUM_range.
    + destruct l as [|t [|i [|]]]; try discriminate Q. match type of Q with (if ?c then _ else _) = _ => destruct c; [|discriminate Q] end.
      injection Q as <- <-. apply PN_NUM_range.
    + destruct l as [|n [|i [|t [|]]]]; try discriminate Q. injection Q as <- <-. apply u64_range.
    + destruct l as [|x [|self [|a [|]]]]; try discriminate Q. destruct (x =? CLO); [|discriminate Q]. cbn [andb] in Q.
      destruct (word a) eqn:E; [|discriminate Q]. injection Q as <- <-. unfold word in E. lia.
    + destruct l as [|x [|n [|]]]; try discriminate Q. destruct (x =? CLO); [|discriminate Q]. injection Q as <- <-. apply PN_NUM_range.
  - intros b v Q. destruct (NV b v Q).
Qed.
Definition ex_S0 : Z := 1000008.
Definition ex_start (self : Z) (args : list Z) : xst Z :=
  mkX 0 (fun q => match q with
                  | RSP => ex_S0 | RDI => ex_P | RSI => ex_cl | RDX => self
                  | RCX => znth args 0 | R8 => znth args 1 | R9 => znth args 2 | _ => 99 end)
    (mkF true true false) (fun ad => ad + 5) 0.
Lemma ex_called self args : zlen args <= 3 -> word self = true -> forallb word args = true ->
  called (ex_start self args) ex_S0 ex_P ex_cl self args 0.
Proof.
  intros L Ws Wa. split; try reflexivity.
  - intros k Hk. assert (k = 0 \/ k = 1 \/ k = 2) as [->|[->| ->]] by lia; reflexivity.
  - split; [unfold word in Ws; lia|]. rewrite forallb_forall in Wa. apply Forall_forall. intros v Hv. specialize (Wa v Hv). unfold word in Wa. lia.
Qed.
Definition jit1 (f : pb) : list Z := match jit_proto ex_addr Toy.toy_str f 4 with Ok c => c | _ => [] end.
Definition machine1 (f : pb) (args : list Z) (fuel : nat) : res (xst Z) :=
  xrun ex_X (jit1 f) ex_S0 fuel (ex_start (PN_NUM 7) args).
Definition rax (r : res (xst Z)) : res Z := do x <- r; Ok (x_r x RAX).
Definition vm1 (f : pb) (args : list Z) (fuel : nat) : res Z :=
  do r <- potion_vm ex_host [f] Toy.toy_str 0 fuel 0 (PN_NUM 7) (Some args) [] 0 (start_stack [f]); Ok (snd r).

(** checking that a run is one where the engines agree *)
Definition wfi_b (regs nl n pos : Z) (i : instr) : bool :=
  let reg r := (0 <=? r) && (r <? regs) in
  let a := ia i in
  let b := ib i in
  match ic i with
  | O_LOADPN | O_SELF | O_TEST | O_NOT => reg a
  | O_GETLOCAL | O_SETLOCAL => reg a && (0 <=? b) && (b <? nl)
  | O_MOVE | O_ADD | O_SUB | O_MULT | O_EQ | O_NEQ | O_LT | O_LTE | O_GT | O_GTE => reg a && reg b
  | O_CALL => (0 <=? a) && (a <=? b) && (b <? regs)
  | O_GETTUPLE => reg a && (if negb (Z.land b ASM_TPL_IMM =? 0) then reg (b - ASM_TPL_IMM) else (0 <=? b) && (b <? ASM_TPL_IMM))
  | O_NEWLICK => reg a && (negb (a <? b) || reg (a + 1)) && (negb (a + 1 <? b) || reg b)
  | O_NAMED => reg a && (a <=? 13) && reg (b - 1) && reg b
  | O_JMP => (0 <=? pos + a + 1) && (pos + a + 1 <? n)
  | O_TESTJMP | O_NOTJMP => reg a && (0 <=? pos + b + 1) && (pos + b + 1 <? n)
  | _ => false
  end.
Definition same_b (w : Z) (i : instr) (x y : Z) (args : list Z) : bool :=
  match ic i with
  | O_ADD | O_SUB | O_MULT =>
      Z.odd x && Z.odd y && (- two62 <=? zop (arith_of (ic i)) (PN_INT x) (PN_INT y)) && (zop (arith_of (ic i)) (PN_INT x) (PN_INT y) <? two62)
  | O_LT | O_LTE | O_GT | O_GTE => Z.odd x && Z.odd y && Bool.eqb (0 <=? PN_INT x) (0 <=? PN_INT y) && (ia i <=? 15)
  | O_CALL => (ia i <=? 15) && (ib i - ia i <=? 4) && (x =? CLO) && (zlen args =? 2)
  | _ => true
  end.
Definition agree_b (f : pb) (D : Z -> bool) (s : vst Z) (i : instr) : bool :=
  wfi_b (b_stack f) (localsize f) (zlen (b_code f)) (v_pos s) i && forallb D (reads (b_stack f) i) &&
  same_b (v_w s) i (vval f 0 (v_st s) (ia i)) (vval f 0 (v_st s) (ib i))
    (map (fun k => vval f 0 (v_st s) (ia i + 1 + Z.of_nat k)) (seq 0 (Z.to_nat (ib i - ia i)))) &&
  match ic i with O_NAMED => forallb (fun k => (k <? b_stack f) && (k <? 2147483648)) (wrote ex_host f 0 s i) | _ => true end.
Lemma agree_b_ok f D s i : agree_b f D s i = true -> agree ex_host f ex_nc ex_P 0 D s i.
Proof.
  unfold agree_b, agree. intros Q. apply andb_true_iff in Q as [Q Q4]. apply andb_true_iff in Q as [Q Q3]. apply andb_true_iff in Q as [Q1 Q2].
  rewrite forallb_forall in Q2. split; [|split; [|split; [clear Q4|]]].
  - unfold wfi_b in Q1. unfold wfi. destruct (ic i); try discriminate Q1; try lia.
    destruct (negb (Z.land (ib i) ASM_TPL_IMM =? 0)); lia.
  - apply Forall_forall. exact Q2.
  - revert Q3. generalize (vval f 0 (v_st s) (ia i)), (vval f 0 (v_st s) (ib i)), (vval f 0 (v_st s) (b_stack f + ib i)).
    match goal with |- context [map ?g ?l] => generalize (map g l) end. intros args x y l Q3.
    unfold same_b in Q3. unfold same_value. unfold wfi_b in Q1. destruct (ic i) eqn:Ei; try discriminate Q1; try exact Logic.I; try reflexivity.
    all: try (apply andb_true_iff in Q3 as [Q3 ?]; apply andb_true_iff in Q3 as [Q3 ?]; rewrite Q3; lia).
    1-4: apply andb_true_iff in Q3 as [Q3 K1]; apply andb_true_iff in Q3 as [Q3 K2]; apply andb_true_iff in Q3 as [K3 K4];
      apply Bool.eqb_prop in K2; (split; [exact K3|split; [exact K4|split; [lia|intros _; left; lia]]]).
    apply andb_true_iff in Q3 as [Q3 K1]; apply andb_true_iff in Q3 as [Q3 K2]; apply andb_true_iff in Q3 as [K3 K4].
    split; [lia|]. split; [lia|]. replace x with CLO by lia. split.
    + destruct args as [|s1 [|a1 [|]]]; try reflexivity; rewrite ?zlen_cons' in K1; try (pose proof (zlen_nonneg args)); change (zlen (@nil Z)) with 0 in K1; try lia.
    + exists None, 0, 0. split; [reflexivity|left; reflexivity].
  - intros Ei. rewrite Ei in Q4. rewrite forallb_forall in Q4. apply Forall_forall. intros k Hk. specialize (Q4 k Hk). lia.
Qed.
Definition no_nested : Z -> Z -> list Z -> list Z -> Z -> (Z -> Z) -> res (Z * (Z -> Z) * Z) := fun _ _ _ _ _ _ => NoFuel.
Fixpoint arun_b (f : pb) (fuel : nat) (D : Z -> bool) (s : vst Z) : option (Z * Z) :=
  match fuel with
  | O => None
  | S fuel =>
      match instr_at f (v_pos s) with
      | None => None
      | Some i =>
          match ic i with
          | O_RETURN => if (ia i =? 0) && D 0 then Some (v_w s, vval f 0 (v_st s) 0) else None
          | _ => if agree_b f D s i then
                   match step ex_host [f] Toy.toy_str 0 no_nested s with
                   | Ok (SRun s') => arun_b f fuel (addD D (wrote ex_host f 0 s i)) s'
                   | _ => None
                   end
                 else None
          end
      end
  end.
Lemma arun_b_ok f fuel : forall D s w v, arun_b f fuel D s = Some (w, v) -> arun ex_host [f] Toy.toy_str 0 f ex_nc ex_P D s w v.
Proof.
  induction fuel as [|fuel IH]; intros D s w v E; [discriminate E|]. cbn [arun_b] in E.
  destruct (instr_at f (v_pos s)) as [i|] eqn:Ei; [|discriminate E]. 
  destruct ((ltac:(decide equality) : {ic i = O_RETURN} + {ic i <> O_RETURN})) as [Er|Nr].
  - rewrite Er in E. destruct (ia i =? 0) eqn:Ea; [|discriminate E]. cbn [andb] in E. destruct (D 0) eqn:ED; [|discriminate E].
    injection E as <- <-. eapply arun_ret with (b := ib i); [|exact ED]. rewrite Ei. destruct i as [o a b]. cbn in *.
    replace a with 0 by lia. rewrite Er. reflexivity.
  - assert (E' : (if agree_b f D s i then
                   match step ex_host [f] Toy.toy_str 0 no_nested s with
                   | Ok (SRun s') => arun_b f fuel (addD D (wrote ex_host f 0 s i)) s'
                   | _ => None
                   end
                 else None) = Some (w, v)) by (destruct (ic i); try exact E; contradiction).
    clear E. destruct (agree_b f D s i) eqn:Ag; [|discriminate E'].
    destruct (step ex_host [f] Toy.toy_str 0 no_nested s) as [[s'| |]| |] eqn:Es; try discriminate E'.
    eapply arun_step; [exact Ei|exact Nr|apply agree_b_ok; exact Ag| |apply IH; exact E'].
    intros nested. destruct (step_mono ex_host [f] Toy.toy_str 0 no_nested nested (fun _ _ _ _ _ _ => or_introl eq_refl) s) as [Q|Q]; congruence.
Qed.

(** ** Cases *)
(** (n, g): s = 0; while (n > 0): s = s + n; n = n - 1.; g(s). *)
Definition sum_src : exps :=
  L [EFun 0 [x; g] (L [ESet i (N 0);
       EWhile (EBin GT (EVar x) (N 0)) (L [ESet i (EBin PLUS (EVar i) (EVar x)); ESet x (EBin MINUS (EVar x) (N 1))]);
       ECallVar g (L [EVar i])])].
Definition fun0 (es : exps) : pb := match compile1 es with f :: _ => f | [] => pb0 [] [] end.
Definition sum_fun : pb := fun0 sum_src.
Definition started (f : pb) (args : list Z) : option (vst Z) :=
  match vm_start [f] Toy.toy_str 0 (PN_NUM 7) (ATuple args) [] 0 (start_stack [f]) with Ok (SRun s) => Some s | _ => None end.
Definition agrees1 (f : pb) (args : list Z) (fuel : nat) : option (Z * Z) :=
  match started f args with Some s => arun_b f fuel (D0 Toy.toy_str f) s | None => None end.
Lemma case_of f args fuel w v : agrees1 f args fuel = Some (w, v) -> b_upvals f = [] -> b_values f = [] ->
  jit_proto ex_addr Toy.toy_str f 4 = Ok (jit1 f) -> (zlen (jit1 f) <? 2147483648) = true -> stack_ok f 4 ex_S0 ->
  forallb word args = true -> zlen args <= 3 -> zlen (jit_names Toy.toy_str 0 (b_sig f)) <= zlen args ->
  (exists N fs', forall k, potion_vm ex_host [f] Toy.toy_str 0 (N + k) 0 (PN_NUM 7) (Some args) [] 0 (start_stack [f]) = Ok (w, fs', v)) /\
  machine_returns ex_X (jit1 f) ex_S0 (ex_start (PN_NUM 7) args) w v.
Proof.
  intros A Hup Hv HJ Hc St Wa L3 Ln. unfold agrees1 in A. destruct (started f args) as [s0|] eqn:E; [|discriminate A]. unfold started in E.
  destruct (vm_start [f] Toy.toy_str 0 (PN_NUM 7) (ATuple args) [] 0 (start_stack [f])) as [[s| |]| |] eqn:V; try discriminate E.
  apply some_inj in E. subst s. apply arun_b_ok in A.
  refine (C59_same_result ex_host ex_X [f] Toy.toy_str 0 0 f ex_addr ex_rt ex_nc ex_P ex_cl 4 (jit1 f) ex_S0
    (PN_NUM 7) (Some args) 0 _ s0 _ w v eq_refl Hup eq_refl HJ _ (ex_runtime f Hv) St (ex_called (PN_NUM 7) args L3 eq_refl Wa) Ln V A).
  apply Z.ltb_lt. exact Hc.
Qed.
(** the hypotheses of C59_same_result hold of it, with the loop and the call: the
    sum 10 + 9 + ... + 1, and one call *)
Theorem same_result_case :
  (exists N fs', forall k, potion_vm ex_host [sum_fun] Toy.toy_str 0 (N + k) 0 (PN_NUM 7) (Some [PN_NUM 10; CLO]) [] 0 (start_stack [sum_fun])
     = Ok (1, fs', PN_NUM 55)) /\
  machine_returns ex_X (jit1 sum_fun) ex_S0 (ex_start (PN_NUM 7) [PN_NUM 10; CLO]) 1 (PN_NUM 55).
Proof.
  assert (A : agrees1 sum_fun [PN_NUM 10; CLO] 300 = Some (1, PN_NUM 55)) by (vm_compute; reflexivity).
  apply case_of in A; [exact A|vm_compute; reflexivity|vm_compute; reflexivity|vm_compute; reflexivity|vm_compute; reflexivity| |vm_compute; reflexivity|vm_compute; congruence|vm_compute; congruence].
  vm_compute. repeat split; congruence.
Qed.
Example sum_runs : rax (machine1 sum_fun [PN_NUM 10; CLO] 2000) = Ok (PN_NUM 55) /\ vm1 sum_fun [PN_NUM 10; CLO] 300 = Ok (PN_NUM 55).
Proof. vm_compute. auto. Qed.

(** the creation of a lick: with its name only, with an inner value, and with both;
    the host's value is name + 2 inner + 4 attributes *)
Definition lick_at (b : Z) : pb :=
  mkPb [mkI O_LOADPN 1 (PN_NUM 5); mkI O_GETLOCAL 2 0; mkI O_GETLOCAL 3 1; mkI O_NEWLICK 1 b; mkI O_MOVE 0 1; mkI O_RETURN 0 0]
    [] [x; y] [] [] [] [x; y] 4.
Definition lick_words (i t : Z) : Z := PN_NUM 5 + 2 * i + 4 * t.
Definition lick_spec (b : Z) : Z :=
  if b =? 1 then lick_words PN_NIL PN_NIL else if b =? 2 then lick_words (PN_NUM 30) PN_NIL else lick_words (PN_NUM 30) (PN_NUM 400).
Theorem lick_case b : b = 1 \/ b = 2 \/ b = 3 ->
  (exists N fs', forall k, potion_vm ex_host [lick_at b] Toy.toy_str 0 (N + k) 0 (PN_NUM 7) (Some [PN_NUM 30; PN_NUM 400]) [] 0 (start_stack [lick_at b])
     = Ok (100, fs', lick_spec b)) /\
  machine_returns ex_X (jit1 (lick_at b)) ex_S0 (ex_start (PN_NUM 7) [PN_NUM 30; PN_NUM 400]) 100 (lick_spec b).
Proof.
  intros Hb.
  assert (A : agrees1 (lick_at b) [PN_NUM 30; PN_NUM 400] 300 = Some (100, lick_spec b)) by (destruct Hb as [->|[->| ->]]; vm_compute; reflexivity).
  apply case_of in A; [exact A| | | | | | | |]; destruct Hb as [->|[->| ->]]; vm_compute; try reflexivity; try congruence; repeat split; congruence.
Qed.

(** elements of a tuple: (t, i): t[2] + t[i], with i = 1; the tuple was moved by the
    garbage collector, so the code has to follow the forwarding pointer *)
Definition at_fun : pb := fun0 (L [EFun 0 [x; y] (L [EBin PLUS (EAt false x (AInt 2)) (EAt false x (AVar y))])]).
Example at_fun_code : b_code at_fun =
  [mkI O_GETLOCAL 0 0; mkI O_GETTUPLE 0 2; mkI O_GETLOCAL 1 0; mkI O_GETLOCAL 2 1; mkI O_GETTUPLE 1 (2 + 1024); mkI O_ADD 0 1; mkI O_RETURN 0 0].
Proof. vm_compute. reflexivity. Qed.
Theorem tuple_case :
  (exists N fs', forall k, potion_vm ex_host [at_fun] Toy.toy_str 0 (N + k) 0 (PN_NUM 7) (Some [TUP; PN_NUM 1]) [] 0 (start_stack [at_fun])
     = Ok (0, fs', PN_NUM 40)) /\
  machine_returns ex_X (jit1 at_fun) ex_S0 (ex_start (PN_NUM 7) [TUP; PN_NUM 1]) 0 (PN_NUM 40).
Proof.
  assert (A : agrees1 at_fun [TUP; PN_NUM 1] 300 = Some (0, PN_NUM 40)) by (vm_compute; reflexivity).
  apply case_of in A; [exact A|vm_compute; reflexivity|vm_compute; reflexivity|vm_compute; reflexivity|vm_compute; reflexivity| |vm_compute; reflexivity|vm_compute; congruence|vm_compute; congruence].
  vm_compute. repeat split; congruence.
Qed.

(** a named argument: (x, y): x(n = y), where n is the first parameter of x; the code
    is what the compiler writes for the call, with a number for the name *)
Definition named_fun (nm : Z) : pb :=
  mkPb [mkI O_GETLOCAL 1 0; mkI O_SELF 2 0; mkI O_GETLOCAL 5 1; mkI O_LOADPN 4 nm; mkI O_NAMED 1 5; mkI O_CALL 1 3; mkI O_MOVE 0 1; mkI O_RETURN 0 0]
    [] [x; y] [] [] [] [x; y] 6.
Theorem named_case :
  (exists N fs', forall k, potion_vm ex_host [named_fun (PN_NUM 9)] Toy.toy_str 0 (N + k) 0 (PN_NUM 7) (Some [CLO; PN_NUM 400]) [] 0 (start_stack [named_fun (PN_NUM 9)])
     = Ok (1001, fs', PN_NUM 400)) /\
  machine_returns ex_X (jit1 (named_fun (PN_NUM 9))) ex_S0 (ex_start (PN_NUM 7) [CLO; PN_NUM 400]) 1001 (PN_NUM 400).
Proof.
  assert (A : agrees1 (named_fun (PN_NUM 9)) [CLO; PN_NUM 400] 300 = Some (1001, PN_NUM 400)) by (vm_compute; reflexivity).
  apply case_of in A; [exact A|vm_compute; reflexivity|vm_compute; reflexivity|vm_compute; reflexivity|vm_compute; reflexivity| |vm_compute; reflexivity|vm_compute; congruence|vm_compute; congruence].
  vm_compute. repeat split; congruence.
Qed.
(** the function of C59_integers_exact is the compiler's output for (x, y): x o y *)
Definition bin_src (p : part) : exps := L [EFun 0 [x; y] (L [EBin p (EVar x) (EVar y)])].
Example bin_case : fun0 (bin_src PLUS) = bin_fun O_ADD x y /\ fun0 (bin_src DIV) = bin_fun O_DIV x y /\ fun0 (bin_src GT) = bin_fun O_GT x y
  /\ fun0 (bin_src TIMES) = bin_fun O_MULT x y /\ fun0 (bin_src NEQ) = bin_fun O_NEQ x y.
Proof. vm_compute. auto. Qed.
Example exact_case : machine_returns ex_X (jit1 (bin_fun O_MULT x y)) ex_S0 (ex_start (PN_NUM 7) [PN_NUM (-6); PN_NUM 7]) 0 (PN_NUM (-42)).
Proof.
  refine (C59_integers_exact ex_host ex_X Toy.toy_str O_MULT x y ex_addr ex_rt ex_nc ex_P ex_cl 4 (jit1 (bin_fun O_MULT x y)) ex_S0
    eq_refl eq_refl _ _ _ _ (ex_runtime (bin_fun O_MULT x y) eq_refl) _ (PN_NUM 7) (-6) 7 0 _ _ eq_refl eq_refl (ex_called (PN_NUM 7) [PN_NUM (-6); PN_NUM 7] _ eq_refl eq_refl) eq_refl).
  - discriminate.
  - discriminate.
  - vm_compute. reflexivity.
  - apply Z.ltb_lt. vm_compute. reflexivity.
  - vm_compute. repeat split; congruence.
  - discriminate.
Qed.

(** ** Where the engines differ *)
Definition differ (p : part) (i j vm jit : Z) : Prop :=
  vm1 (fun0 (bin_src p)) [PN_NUM i; PN_NUM j] 20 = Ok vm /\ rax (machine1 (fun0 (bin_src p)) [PN_NUM i; PN_NUM j] 200) = Ok jit /\ vm <> jit.
(** -8 / 2 is -4 in the interpreter, 2147483644 in the generated code; -7 % 3
    likewise; 4294967296 / 2 is 0 *)
Theorem C59_division_refuted :
  differ DIV (-8) 2 (PN_NUM (-4)) (PN_NUM 2147483644) /\ differ REM (-7) 3 (PN_NUM (-1)) (PN_NUM 2147483647) /\
  differ DIV 4294967296 2 (PN_NUM 2147483648) (PN_NUM 0).
Proof. unfold differ. repeat split; try (vm_compute; reflexivity); vm_compute; congruence. Qed.
(** the comparison of numbers of different sign: 1 < -1 is true in the interpreter,
    false in the generated code *)
Theorem C59_comparison_refuted : differ LT 1 (-1) PN_TRUE PN_FALSE.
Proof. unfold differ. repeat split; try (vm_compute; reflexivity); vm_compute; congruence. Qed.
(** 2^62 - 1 + 1: the interpreter leaves the integers (this host has no doubles:
    it stops), the generated code wraps around to -2^62 *)
Theorem C59_overflow_refuted :
  vm1 (fun0 (bin_src PLUS)) [PN_NUM (2^62 - 1); PN_NUM 1] 20 = UB /\
  rax (machine1 (fun0 (bin_src PLUS)) [PN_NUM (2^62 - 1); PN_NUM 1] 200) = Ok (PN_NUM (- 2^62)).
Proof. vm_compute. auto. Qed.
(** A comparison whose result register is 16..31: when it is false, the generated
    code jumps into the middle of an instruction.  (With 15 or 32 it works.) *)
Definition cmp_at (r : Z) : pb :=
  mkPb [mkI O_LOADPN r (PN_NUM 2); mkI O_LOADPN (r + 1) (PN_NUM 3); mkI O_GT r (r + 1); mkI O_MOVE 0 r; mkI O_RETURN 0 0] [] [] [] [] [] [] (r + 2).
Theorem C59_wide_register_refuted : vm1 (cmp_at 20) [] 20 = Ok PN_FALSE /\ machine1 (cmp_at 20) [] 200 = UB /\
  rax (machine1 (cmp_at 15) [] 200) = Ok PN_FALSE /\ rax (machine1 (cmp_at 32) [] 200) = Ok PN_FALSE.
Proof. vm_compute. auto. Qed.
(** A call whose result register is 30 overwrites the return address. *)
Definition call_at (r : Z) : pb :=
  mkPb [mkI O_GETLOCAL r 0; mkI O_SELF (r + 1) 0; mkI O_LOADPN (r + 2) (PN_NUM 3); mkI O_CALL r (r + 2); mkI O_LOADPN 0 (PN_NUM 5); mkI O_RETURN 0 0]
    [] [g] [] [] [] [g] (r + 3).
Theorem C59_call_register_refuted :
  vm1 (call_at 30) [CLO] 20 = Ok (PN_NUM 5) /\
  (do s <- machine1 (call_at 30) [CLO] 300; Ok (x_m s ex_S0)) = Ok (PN_NUM 3) /\
  (do s <- machine1 (call_at 10) [CLO] 300; Ok (x_m s ex_S0)) = Ok (x_m (ex_start 0 []) ex_S0).
Proof. vm_compute. auto. Qed.
(** The value of a variable that was never assigned is what the stack held. *)
Definition unset_src : exps := L [EFun 0 [x] (L [EIf (EVar x) (L [ESet y (N 1)]) KEnd; EVar y])].
Theorem C59_unset_variable_refuted :
  vm1 (fun0 unset_src) [PN_FALSE] 20 = Ok PN_NIL /\ exists v, rax (machine1 (fun0 unset_src) [PN_FALSE] 200) = Ok v /\ v <> PN_NIL.
Proof. split; [vm_compute; reflexivity|]. eexists. split; [vm_compute; reflexivity|discriminate]. Qed.
(** Division by zero ends the process in both. *)
Example division_by_zero : vm1 (fun0 (bin_src DIV)) [PN_NUM 1; PN_NUM 0] 20 = UB /\ machine1 (fun0 (bin_src DIV)) [PN_NUM 1; PN_NUM 0] 200 = UB.
Proof. vm_compute. auto. Qed.
Print Assumptions C59_same_result.
Print Assumptions C59_source_to_machine.
Print Assumptions C59_integers_exact.
