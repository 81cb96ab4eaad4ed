(** What the generated code of one operation does to the stack frame, and the
    proof that the bytes do that. *)
From Coq Require Import ZifyBool.
From Verif Require Import Base Arr GArr WordModel AsmModel ObjModel PropIvf CompileModel X86Model JitModel JitProofs.
Ltac Zify.zify_post_hook ::= Z.div_mod_to_equations.

(** System V argument registers *)
Definition argreg (n : Z) : reg :=
  if n =? 0 then RDI else if n =? 1 then RSI else if n =? 2 then RDX else if n =? 3 then RCX
  else if n =? 4 then R8 else R9.
(** the parameters each runtime function looks at *)
Definition apos (f : cfun) : list nat :=
  match f with
  | F_values => [0; 1]
  | F_define_global | F_tuple_push => [0; 1; 2]
  | F_tuple_empty | F_fwd => [0]
  | F_table_at | F_obj_get | F_num_pow => [0; 2; 3]
  | F_table_set | F_lick => [0; 1; 2; 3]
  | F_obj_set | F_def_method => [0; 2; 3; 4]
  | F_obj_add | F_obj_sub | F_obj_mult | F_obj_div | F_obj_rem | F_obj_bitn | F_obj_bitl | F_obj_bitr | F_protos => [0; 1; 2]
  | F_vm_eq | F_vm_neq | F_bind | F_message | F_vm_class | F_sig_find => [0; 1; 2]
  | F_get_callset | F_get_call | F_ref => [0; 1]
  | F_object_new => [0; 2]
  end%nat.

(** what the machine finds when it calls closure [x] with arguments [args] (self
    first): an even address with the type word of a closure, the code's address in
    the word at 8, and a function there that looks at no more arguments *)
Definition native_call {W} (X : xhost W) (w : W) (p x : Z) (args : list Z) (r : W * Z) : Prop :=
  Z.odd x = false /\ Z.land (u32 x) (two32 - 8) <> 0 /\
  (exists t, xh_load X w (Z.land x (two64 - 8)) = Ok t /\ u32 t = PN_TCLOSURE) /\
  exists m, xh_load X w (u64 (x + 8)) = Ok m /\
    forall L, length L = 6%nat -> firstn (2 + length args) L = p :: x :: args -> xh_call X w m L = Ok r.

Inductive jt := JNext | JJump | JRet (v : Z).

Section Sem.
  Context {W : Type} (rt : cfun -> W -> list Z -> res (W * Z)) (load : W -> Z -> res Z).
  Context (nc : W -> Z -> Z -> list Z -> res (W * Z)).    (* calling a closure *)
  Context (regs need B : Z).
  (** frame access; outside the frame is not allowed *)
  Definition fget (M : Z -> Z) (r : Z) : res Z := if (0 <=? r) && (r <? need) then Ok (M (B + slot r)) else UB.
  Definition fset (M : Z -> Z) (r v : Z) : res (Z -> Z) :=
    if (0 <=? r) && (r <? need) then Ok (setm M (B + slot r) v) else UB.
  Definition jtest (x : Z) : bool := negb (u64 (x - PN_FALSE) =? 0) && negb (x =? 0).
  Definition jmath (o : opc) (x y : Z) : option Z :=
    match o with
    | O_ADD => Some (u64 (x + y - 1))
    | O_SUB => if ovf (s64 x - s64 y) then None else Some (u64 (u64 (x - y) + 1))
    | O_MULT => let p := s64 (u64 (x - 1)) * s64 (u64 (s64 y / 2)) in
                if ovf p then None else Some (u64 (u64 p + 1))
    | _ => None
    end.
  (** DIV and REM, on the low halves *)
  Definition jdiv (rem : bool) (x y : Z) : res Z :=
    let n := s32 (u32 (s32 x / 2)) in
    let m := s32 (u32 (u32 (s32 y / 2))) in
    if m =? 0 then UB
    else let q := u32 (if rem then Z.rem n m else Z.quot n m) in Ok (u32 (q + q + 1)).
  Definition jcmp (o : opc) (x y : Z) : bool :=
    match o with
    | O_LT => s64 x <? s64 y | O_LTE => s64 x <=? s64 y | O_GT => s64 y <? s64 x | _ => s64 y <=? s64 x
    end.
  Definition mathf (o : opc) : cfun :=
    match o with O_ADD => F_obj_add | O_SUB => F_obj_sub | O_MULT => F_obj_mult | O_DIV => F_obj_div | _ => F_obj_rem end.

  Fixpoint fargs (M : Z -> Z) (r : Z) (n : nat) : res (list Z) :=
    match n with
    | O => Ok []
    | S n => do v <- fget M r; do l <- fargs M (r + 1) n; Ok (v :: l)
    end.
  Definition jsem (i : instr) (w : W) (M : Z -> Z) : res (W * (Z -> Z) * jt) :=
    let a := ia i in
    let b := ib i in
    let R r := fget M r in
    let set r v w := do m <- fset M r v; Ok (w, m, JNext) in
    let call f args := do p <- R (need - 3); do r <- rt f w (p :: args); set a (snd r) (fst r) in
    match ic i with
    | O_NONE => Ok (w, M, JNext)
    | O_MOVE => do v <- R b; set a v w
    | O_LOADPN => set a (u64 b) w
    | O_LOADK => if (0 <=? b) && (b <? 65536) then
                 do p <- R (need - 3); do c <- R (need - 2); do r <- rt F_values w [p; c];
                 do v <- load (fst r) (u64 (u64 (snd r + (16 + b * 8)) + 0)); set a v (fst r) else UB
    | O_SELF => do v <- R (need - 1); set a v w
    | O_GETLOCAL => do v <- R (regs + b); set a v w
    | O_SETLOCAL => do v <- R a; set (regs + b) v w
    | O_GLOBAL => do x <- R a; do v <- R b; do p <- R (need - 3); do r <- rt F_define_global w [p; x; v];
                  set a v (fst r)
    | O_NEWTUPLE => call F_tuple_empty []
    | O_GETTUPLE => do x <- R a; do r <- rt F_fwd w [x];
                    if negb (Z.land b ASM_TPL_IMM =? 0)
                    then do y <- R (b - ASM_TPL_IMM); do v <- load (fst r) (u64 (snd r + (16 + PN_INT y * 8))); set a v (fst r)
                    else if (0 <=? b) && (b <? ASM_TPL_IMM) then do v <- load (fst r) (u64 (snd r + (16 + b * 8))); set a v (fst r) else UB
    | O_SETTUPLE => do x <- R a; do v <- R b; call F_tuple_push [x; v]
    | O_NAMED => if a + 2 <=? 15 then
                 do x <- R a; do n <- R (b - 1); do v <- R b; do p <- R (need - 3); do r <- rt F_sig_find w [p; x; n];
                 if s32 (snd r) <? 0 then Ok (fst r, M, JNext)
                 else if (0 <=? snd r) && (snd r <? 2147483648)
                 then set (a + 2 + snd r) v (fst r) else UB else UB
    | O_GETTABLE => do x <- R a; do v <- R b; call F_table_at [x; v]
    | O_SETTABLE => do x <- R a; do k <- R (a + 1); do v <- R b; call F_table_set [x; k; v]
    | O_NEWLICK => do x <- R a; do i <- (if a <? b then R (a + 1) else Ok PN_NIL);
                   do t <- (if a + 1 <? b then R b else Ok PN_NIL); call F_lick [x; i; t]
    | O_GETPATH => do x <- R a; do v <- R b; call F_obj_get [x; v]
    | O_SETPATH => do x <- R a; do k <- R (a + 1); do v <- R b; do p <- R (need - 3);
                   do r <- rt F_obj_set w [p; x; k; v]; Ok (fst r, M, JNext)
    | O_ADD | O_SUB | O_MULT =>
        do x <- R a; do y <- R b;
        match (if Z.odd x && Z.odd y then jmath (ic i) x y else None) with
        | Some v => set a v w
        | None => call (mathf (ic i)) [x; y]
        end
    | O_DIV | O_REM =>
        do x <- R a; do y <- R b;
        if Z.odd x && Z.odd y then do v <- jdiv (match ic i with O_REM => true | _ => false end) x y; set a v w
        else call (mathf (ic i)) [x; y]
    | O_POW => do x <- R a; do v <- R b; call F_num_pow [x; v]
    | O_EQ => do x <- R a; do v <- R b; call F_vm_eq [x; v]
    | O_NEQ => do x <- R a; do v <- R b; call F_vm_neq [x; v]
    | O_LT | O_LTE | O_GT | O_GTE =>
        do x <- R a; do y <- R b;
        if Z.odd x && Z.odd y then
          if jcmp (ic i) x y then set a PN_TRUE w
          else if (15 <? a) && (a <? 32) then UB else set a PN_FALSE w
        else UB
    | O_BITN => do x <- R a; do y <- R b;
                if Z.odd x then set a (u64 (two64 - 1 - x + 1)) w else call F_obj_bitn [x; y]
    | O_DEF => do x <- R a; do k <- R (a + 1); do v <- R b; call F_def_method [x; k; v]
    | O_BIND => do x <- R b; do m <- R a; call F_bind [x; m]
    | O_MSG => do x <- R b; do m <- R a; call F_message [x; m]
    | O_JMP => Ok (w, M, JJump)
    | O_TEST | O_CMP => do x <- R a; set a (if jtest x then PN_TRUE else PN_FALSE) w
    | O_NOT => do x <- R a; set a (if jtest x then PN_FALSE else PN_TRUE) w
    | O_TESTJMP => do x <- R a; Ok (w, M, if jtest x then JJump else JNext)
    | O_NOTJMP => do x <- R a; Ok (w, M, if jtest x then JNext else JJump)
    | O_CALL => if (a <=? 15) && (b - a <=? 4) then
                  do p <- R (need - 3); do x <- R a; do l <- fargs M (a + 1) (Z.to_nat (b - a));
                  do r <- nc w p x l; set a (snd r) (fst r)
                else UB
    | O_CALLSET => do x <- R b; call F_get_callset [x]
    | O_RETURN => do v <- R 0; Ok (w, M, JRet v)
    | O_CLASS => do x <- R b; do m <- R a; call F_vm_class [x; m]
    | _ => UB
    end.
End Sem.

Lemma enc_ld_rax r : 0 <= r -> mov_rbp 139 r = enc_reg 139 RAX (slot r).
Proof. intros H. unfold mov_rbp. rewrite mov_ebp_enc by exact H. reflexivity. Qed.
Lemma enc_st_rax r : 0 <= r -> mov_rbp 137 r = enc_reg 137 RAX (slot r).
Proof. intros H. unfold mov_rbp. rewrite mov_ebp_enc by exact H. reflexivity. Qed.
Lemma enc_ld_rdx r : 0 <= r -> [72; 139] ++ mov_ebp 85 r = enc_reg 139 RDX (slot r).
Proof. intros H. rewrite mov_ebp_enc by exact H. reflexivity. Qed.
Lemma enc_st_rdx r : 0 <= r -> [72; 137] ++ mov_ebp 85 r = enc_reg 137 RDX (slot r).
Proof. intros H. rewrite mov_ebp_enc by exact H. reflexivity. Qed.
Lemma argo_enc r n : 0 <= r -> argo r n = enc_reg 139 (argreg n) (slot r).
Proof.
  intros H. unfold argo, argreg. rewrite !mov_ebp_enc by exact H.
  repeat match goal with |- context [if ?c then _ else _] => destruct c; [reflexivity|] end. reflexivity.
Qed.
Lemma argi_enc r n : 0 <= r -> argi r n = enc_reg 137 (argreg n) (slot r).
Proof.
  intros H. unfold argi, argreg. rewrite !mov_ebp_enc by exact H.
  repeat match goal with |- context [if ?c then _ else _] => destruct c; [reflexivity|] end. reflexivity.
Qed.
Lemma movq_enc r x : 0 <= r -> movq r x = ([72; 184] ++ ASMN (u64 x)) ++ enc_reg 137 RAX (slot r).
Proof. intros H. unfold movq. rewrite mov_ebp_enc by exact H. rewrite <- app_assoc. reflexivity. Qed.
Lemma zlen_enc o q d : gpr q = true -> zlen (enc_reg o q d) = if d <? -128 then 7 else 4.
Proof.
  intros G. destruct q; try discriminate G; cbn [enc_reg]; rewrite zlen_app, zlen_mem; change (zlen [_; _]) with 2;
  destruct (d <? -128); reflexivity.
Qed.
Lemma u64_range x : 0 <= u64 x < two64.
Proof. unfold u64, two64. lia. Qed.

  Lemma s32_range x : -2147483648 <= s32 x < 2147483648.
  Proof. unfold s32, two32. lia. Qed.
  Lemma s32_u32 x : -2147483648 <= x < 2147483648 -> s32 (u32 x) = x.
  Proof. unfold s32, u32, two32. intros. lia. Qed.
  Lemma u32_u32 x : u32 (u32 x) = u32 x.
  Proof. unfold u32, two32. lia. Qed.
  Lemma cdq_s64 n : -1073741824 <= n < 1073741824 ->
    s64 (u32 (u32 (s32 (u32 (u32 n)) / 2147483648)) * two32 + u32 (u32 n)) = n.
  Proof.
    intros H. rewrite !u32_u32, s32_u32 by lia. unfold s64, u32, two32, two64, two63.
    destruct (Z_lt_le_dec n 0).
    - replace (n / 2147483648) with (-1) by lia. replace (n mod 4294967296) with (n + 4294967296) by lia.
      change (-1 mod 4294967296) with 4294967295. lia.
    - replace (n / 2147483648) with 0 by lia. replace (n mod 4294967296) with n by lia.
      change (0 mod 4294967296) with 0. lia.
  Qed.
  Lemma quot_bound n m : -1073741824 <= n < 1073741824 -> m <> 0 -> -1073741824 <= Z.quot n m <= 1073741824.
  Proof.
    intros H Hm. assert (Z.abs (Z.quot n m) <= Z.abs n); [|lia].
    rewrite <- Z.quot_abs by exact Hm. rewrite Z.quot_div_nonneg by lia.
    apply Z.div_le_upper_bound; [lia|]. nia.
  Qed.
  Lemma argreg_inj m n : 0 <= m < 6 -> 0 <= n < 6 -> argreg m = argreg n -> m = n.
  Proof.
    intros Hm Hn. unfold argreg.
    repeat match goal with |- context [if ?c then _ else _] => let E := fresh in destruct c eqn:E end; intros; try discriminate; try lia.
  Qed.
  Lemma argreg_gpr m : gpr (argreg m) = true.
  Proof. unfold argreg. repeat match goal with |- context [if ?c then _ else _] => destruct c end; reflexivity. Qed.
  Lemma argreg_rax m : argreg m <> RAX.
  Proof. unfold argreg. repeat match goal with |- context [if ?c then _ else _] => destruct c end; discriminate. Qed.
  (** the six argument registers as a list *)
  Lemma args6 (R : reg -> Z) n : (n < 6)%nat -> nth n [R RDI; R RSI; R RDX; R RCX; R R8; R R9] 0 = R (argreg (Z.of_nat n)).
  Proof. intros H. do 6 (destruct n as [|n]; [reflexivity|]). lia. Qed.

Section Exec.
  Context {W : Type} (X : xhost W) (code : list Z) (S0 : Z).
  Context (B Sp : Z) (HB : B mod 8 = 0) (HA16 : Sp mod 16 = 0).
  Context (addr : cfun -> Z) (Haddr : forall f, 0 <= addr f < two64).
  Context (rt : cfun -> W -> list Z -> res (W * Z)).
  Context (HX : forall f w L, length L = 6%nat ->
             xh_call X w (addr f) L = rt f w (map (fun n => nth n L 0) (apos f))).
  Context (nc : W -> Z -> Z -> list Z -> res (W * Z)).
  Context (Hnc : forall w p x l r, nc w p x l = Ok r -> native_call X w p x l r).
  Context (regs need : Z) (Hneed : 3 <= need < 268435455) (HSp : Sp <= B - need * 8) (Hregs : 0 <= regs).

  Notation xs := (xs X code S0).
  Notation at_ := (at_ code).
  Notation G := (G B Sp).
  Notation inframe := (inframe B Sp).
  Notation JS := (jsem rt (xh_load X) nc regs need B).

  Lemma inneed r : 0 <= r < need -> inframe r.
  Proof. unfold JitProofs.inframe, slot. lia. Qed.
  Lemma fget_ok M r v : fget need B M r = Ok v -> inframe r /\ 0 <= r < need /\ M (B + slot r) = v.
  Proof.
    unfold fget. destruct ((0 <=? r) && (r <? need)) eqn:E; [|discriminate]. intros [= <-].
    split; [apply inneed; lia|]. split; [lia|reflexivity].
  Qed.
  Lemma fset_ok M r v M' : fset need B M r v = Ok M' -> inframe r /\ 0 <= r < need /\ M' = setm M (B + slot r) v.
  Proof.
    unfold fset. destruct ((0 <=? r) && (r <? need)) eqn:E; [|discriminate]. intros [= <-].
    split; [apply inneed; lia|]. split; [lia|reflexivity].
  Qed.

  Lemma step1 bs i rest pc R f m w s1 (P : xst W -> Prop) :
    at_ pc (bs ++ rest) -> decs bs i -> exec X S0 i (zlen bs) (mkX pc R f m w) = Ok (XRun s1) ->
    (at_ (pc + zlen bs) rest -> exists s', xs s1 s' /\ P s') -> exists s', xs (mkX pc R f m w) s' /\ P s'.
  Proof.
    intros A D E K. apply at_app in A as [A1 A2]. destruct (K A2) as (s' & Xs & HP). exists s'. split; [|exact HP].
    eapply xs_trans; [eapply xs_one; [exact A1|exact D|exact E]|exact Xs].
  Qed.
  Lemma at_skip pc a b : at_ pc (a ++ b) -> at_ (pc + zlen a) b.
  Proof. intros A. apply at_app in A. apply A. Qed.
  Lemma finish s (P : xst W -> Prop) : P s -> exists s', xs s s' /\ P s'.
  Proof. intros. exists s. split; [apply xs_refl|assumption]. Qed.

  (** one load / store on explicit states *)
  Lemma ld1 q r rest pc R f m w (P : xst W -> Prop) : gpr q = true -> inframe r -> R RBP = B ->
    at_ pc (enc_reg 139 q (slot r) ++ rest) ->
    (at_ (pc + zlen (enc_reg 139 q (slot r))) rest ->
      exists s', xs (mkX (pc + zlen (enc_reg 139 q (slot r))) (setr R q (m (B + slot r))) f m w) s' /\ P s') ->
    exists s', xs (mkX pc R f m w) s' /\ P s'.
  Proof.
    intros Q F E A K. eapply step1; [exact A| | |exact K].
    - apply decs_ld; [exact Q|]. unfold slot. destruct F. lia.
    - cbn [exec x_r x_m x_f x_w x_pc]. rewrite E, (slot_al B HB). reflexivity.
  Qed.
  Lemma st1 q r rest pc R f m w (P : xst W -> Prop) : gpr q = true -> inframe r -> R RBP = B ->
    at_ pc (enc_reg 137 q (slot r) ++ rest) ->
    (at_ (pc + zlen (enc_reg 137 q (slot r))) rest ->
      exists s', xs (mkX (pc + zlen (enc_reg 137 q (slot r))) R f (setm m (B + slot r) (R q)) w) s' /\ P s') ->
    exists s', xs (mkX pc R f m w) s' /\ P s'.
  Proof.
    intros Q F E A K. eapply step1; [exact A| | |exact K].
    - apply decs_st; [exact Q|]. unfold slot. destruct F. lia.
    - cbn [exec x_r x_m x_f x_w x_pc]. rewrite E, (slot_al B HB). reflexivity.
  Qed.
  (** a block: from any state in the frame to a state in the frame [len + d] further *)
  Definition blk (pc : Z) (w : W) (M : Z -> Z) (pc' : Z) (w' : W) (M' : Z -> Z) : Prop := forall s, G pc w M s -> exists s', xs s s' /\ G pc' w' M' s'.

  Lemma G_put pc (w : W) M m R f (w' : W) a v : (forall ad, Sp <= ad -> m ad = M ad) -> R RBP = B -> R RSP = Sp -> w' = w ->
    inframe a -> G pc w (setm M (B + slot a) v) (mkX pc R f (setm m (B + slot a) v) w').
  Proof.
    intros Hm H1 H2 -> F. split; cbn; auto. intros ad L. unfold setm. destruct (ad =? B + slot a); auto.
  Qed.

  Ltac go1 := cbn [exec x_r x_m x_f x_w x_pc]; reflexivity.
  Ltac one bs i := eapply (step1 bs i); [eassumption|intros ?; reflexivity|go1|];
    match goal with A : at_ _ _ |- _ => clear A; intros A end.

  Lemma move_blk q pc w M b a : gpr q = true -> inframe b -> inframe a ->
    at_ pc (enc_reg 139 q (slot b) ++ enc_reg 137 q (slot a)) ->
    blk pc w M (pc + zlen (enc_reg 139 q (slot b) ++ enc_reg 137 q (slot a))) w (setm M (B + slot a) (M (B + slot b))).
  Proof.
    intros Q Fb Fa A [pc0 R f m w0] [g1 g2 g3 g4 g5]. cbn [x_pc x_r x_f x_m x_w] in *. subst pc0 w0.
    assert (Q1 : reg_eqb RBP q = false) by (destruct q; try discriminate Q; reflexivity).
    assert (Q2 : reg_eqb RSP q = false) by (destruct q; try discriminate Q; reflexivity).
    assert (Q3 : reg_eqb q q = true) by (destruct q; reflexivity).
    eapply ld1; [exact Q|exact Fb|exact g2|exact A|]. clear A; intros A.
    rewrite <- (app_nil_r (enc_reg 137 _ _)) in A.
    eapply st1; [exact Q|exact Fa|unfold setr; rewrite Q1; exact g2|exact A|]. intros _. apply finish.
    rewrite zlen_app, Z.add_assoc. rewrite <- (g5 (B + slot b)) by apply Fb.
    unfold setr at 2. rewrite Q3.
    apply G_put; auto; unfold setr; [rewrite Q1|rewrite Q2]; assumption.
  Qed.
  Lemma movq1 a x rest pc R f m w (P : xst W -> Prop) : inframe a -> R RBP = B ->
    at_ pc (movq a x ++ rest) ->
    (at_ (pc + zlen (movq a x)) rest ->
     exists s', xs (mkX (pc + zlen (movq a x)) (setr R RAX (u64 x)) f (setm m (B + slot a) (u64 x)) w) s' /\ P s') ->
    exists s', xs (mkX pc R f m w) s' /\ P s'.
  Proof.
    intros F E A K. rewrite movq_enc in * by apply F. rewrite zlen_app in K. rewrite <- app_assoc in A.
    eapply step1; [exact A|apply decs_movi; apply u64_range|go1|]. clear A; intros A.
    eapply (st1 RAX); [reflexivity|exact F|exact E|exact A|]. rewrite Z.add_assoc in K. exact K.
  Qed.
  Lemma movq_blk pc w M a x : inframe a -> at_ pc (movq a x) ->
    blk pc w M (pc + zlen (movq a x)) w (setm M (B + slot a) (u64 x)).
  Proof.
    intros Fa A [pc0 R f m w0] [g1 g2 g3 g4 g5]. cbn [x_pc x_r x_f x_m x_w] in *. subst pc0 w0.
    rewrite <- (app_nil_r (movq _ _)) in A. eapply movq1; [exact Fa|exact g2|exact A|]. intros _. apply finish.
    apply G_put; auto.
  Qed.
  Lemma zlen_movq a x : 0 <= a -> 0 <= zlen (movq a x) <= 17.
  Proof.
    intros H. rewrite movq_enc by exact H. unfold ASMN. rewrite !zlen_app, zlen_le, zlen_enc by reflexivity.
    change (zlen [72; 184]) with 2. destruct (slot a <? -128); lia.
  Qed.

  (** argument list as (position, slot) pairs *)
  Definition args (l : list (Z * Z)) : list Z := flat_map (fun p => argo (snd p) (fst p)) l.
  Lemma args_loads l : Forall (fun p => 0 <= snd p) l -> args l = loads (map (fun p => (argreg (fst p), snd p)) l).
  Proof.
    induction 1 as [|[n r] l H F IH]; [reflexivity|]. cbn [args flat_map map fst snd] in *.
    unfold args in IH. rewrite IH, argo_enc by exact H. reflexivity.
  Qed.
  Definition posok (l : list (Z * Z)) : Prop := NoDup (map fst l) /\ Forall (fun p => 0 <= fst p < 6 /\ inframe (snd p)) l.
  Lemma call_pre l f w M w' v :
    posok l -> map fst l = map Z.of_nat (apos f) ->
    rt f w (map (fun p => M (B + slot (snd p))) l) = Ok (w', v) ->
    let L := map (fun p => (argreg (fst p), snd p)) l in
    Forall (fun p => gpr (fst p) = true /\ inframe (snd p)) L /\ NoDup (map fst L) /\ ~ In RAX (map fst L) /\
    forall R, (forall q r, In (q, r) L -> R q = M (B + slot r)) ->
      xh_call X w (addr f) [R RDI; R RSI; R RDX; R RCX; R R8; R R9] = Ok (w', v).
  Proof.
    intros [N F] E C L. split; [|split; [|split]].
    - apply Forall_map. eapply Forall_impl; [|exact F]. intros p [_ Hp]. split; [apply argreg_gpr|exact Hp].
    - unfold L. rewrite map_map. cbn [fst]. clear -N F.
      induction l as [|[n r] l IH]; [constructor|]. inversion N; subst. inversion F as [|? ? [F1 _] F2]; subst.
      cbn [map fst] in *. constructor; [|auto].
      intros I. apply in_map_iff in I as ([n' r'] & E & I). cbn [fst] in E. 
      rewrite Forall_forall in F2. apply argreg_inj in E; [|apply (F2 _ I)|exact F1]. subst n'.
      apply H1. apply in_map_iff. exists (n, r'). auto.
    - unfold L. rewrite map_map. intros I. apply in_map_iff in I as (p & E2 & _). exact (argreg_rax _ E2).
    - intros R HR. rewrite HX by reflexivity. rewrite <- C. f_equal.
      assert (K : forall ns l', map fst l' = map Z.of_nat ns -> Forall (fun n => (n < 6)%nat) ns -> incl l' l ->
        map (fun n => nth n [R RDI; R RSI; R RDX; R RCX; R R8; R R9] 0) ns = map (fun p => M (B + slot (snd p))) l').
      { induction ns as [|n ns IH]; intros [|[n' r'] l'] E' F' Inc; try discriminate E'; [reflexivity|].
        cbn [map fst snd] in *. injection E' as E1 E2. inversion F' as [|? ? Fn Fns]; subst.
        f_equal.
        - rewrite args6 by exact Fn. apply HR. unfold L. apply in_map_iff. exists (Z.of_nat n, r').
          split; [reflexivity|]. apply Inc. left. reflexivity.
        - apply IH; [exact E2|exact Fns|]. intros p Ip. apply Inc. right. exact Ip. }
      apply K; [exact E| |apply incl_refl]. destruct f; cbn; repeat constructor; lia.
  Qed.
  Lemma posok_args l : posok l -> args l = loads (map (fun p => (argreg (fst p), snd p)) l).
  Proof. intros [_ F]. apply args_loads. eapply Forall_impl; [|exact F]. cbn. intros p [_ [H _]]. lia. Qed.
  Lemma call_only l f pc w M w' v rest : posok l -> map fst l = map Z.of_nat (apos f) ->
    rt f w (map (fun p => M (B + slot (snd p))) l) = Ok (w', v) ->
    at_ pc (args l ++ callf addr f ++ rest) ->
    forall s, G pc w M s -> exists s', xs s s' /\ G (pc + zlen (args l ++ callf addr f)) w' M s' /\ x_r s' RAX = v /\
      at_ (pc + zlen (args l ++ callf addr f)) rest.
  Proof.
    intros P E C A s Gs. pose proof (call_pre l f w M w' v P E C) as (H1 & H2 & H3 & H4).
    rewrite (posok_args l P) in *. 
    exact (call_ok X code S0 B Sp HB HA16 addr Haddr _ f pc w M s rest w' v H1 H2 H3 Gs A H4).
  Qed.
  Lemma call_blk l f a pc w M w' v : posok l -> map fst l = map Z.of_nat (apos f) -> inframe a ->
    rt f w (map (fun p => M (B + slot (snd p))) l) = Ok (w', v) ->
    at_ pc (args l ++ callf addr f ++ mov_rbp 137 a) ->
    blk pc w M (pc + zlen (args l ++ callf addr f ++ mov_rbp 137 a)) w' (setm M (B + slot a) v).
  Proof.
    intros P E Fa C A s Gs. pose proof (call_pre l f w M w' v P E C) as (H1 & H2 & H3 & H4).
    rewrite (posok_args l P), enc_st_rax in * by apply Fa. 
    exact (callst_ok X code S0 B Sp HB HA16 addr Haddr _ f a pc w M s w' v H1 H2 H3 Fa Gs A H4).
  Qed.

  (** ** Arithmetic *)
  Definition opsok (w : W) (ops : list Z) (x y : Z) (r : option Z) : Prop :=
    forall pc R f m rest, at_ pc (ops ++ rest) -> R RAX = x -> R RDX = y -> f_o f = false ->
    exists s', xs (mkX pc R f m w) s' /\
      exists R' f', s' = mkX (pc + zlen ops + match r with Some _ => 0 | None => 2 end) R' f' m w /\
        R' RBP = R RBP /\ R' RSP = R RSP /\ forall v, r = Some v -> R' RAX = v.

  Lemma jcc1 c d rest pc R f m w (P : xst W -> Prop) : 0 <= d < 128 -> at_ pc ([enc_cc c; d] ++ rest) ->
    (at_ (pc + 2) rest -> exists s', xs (mkX (if cond c f then pc + 2 + d else pc + 2) R f m w) s' /\ P s') ->
    exists s', xs (mkX pc R f m w) s' /\ P s'.
  Proof.
    intros D A K. eapply (step1 [enc_cc c; d] (XJcc c d)); [exact A| |go1|exact K].
    replace d with (d mod 256) at 1 by lia. apply decs_jcc. lia.
  Qed.
  Lemma jmp1 d rest pc R f m w (P : xst W -> Prop) : 0 <= d < 128 -> at_ pc ([235; d] ++ rest) ->
    (exists s', xs (mkX (pc + 2 + d) R f m w) s' /\ P s') -> exists s', xs (mkX pc R f m w) s' /\ P s'.
  Proof.
    intros D A K. eapply (step1 [235; d] (XJmp d)); [exact A| |go1|intros _; exact K].
    replace d with (d mod 256) at 1 by lia. apply decs_jmp8. lia.
  Qed.

  Lemma zlen_argo r n : 0 <= r -> 0 <= zlen (argo r n) <= 7.
  Proof. intros H. rewrite argo_enc by exact H. rewrite zlen_enc by apply argreg_gpr. destruct (_ <? _); lia. Qed.
  Lemma zlen_callf f : zlen (callf addr f) = 12.
  Proof. unfold callf, ASMN. rewrite !zlen_app, zlen_le. reflexivity. Qed.

  Lemma xs_pre s s1 (P : xst W -> Prop) : xs s s1 -> (exists s', xs s1 s' /\ P s') -> exists s', xs s s' /\ P s'.
  Proof. intros A (s' & Xs & HP). exists s'. split; [eapply xs_trans; eassumption|exact HP]. Qed.

  Lemma slow_blk f a b pc w M w' v rest : apos f = [0; 1; 2]%nat -> inframe a -> inframe b ->
    rt f w [M (B + slot (need - 3)); M (B + slot a); M (B + slot b)] = Ok (w', v) ->
    at_ pc ((argo (need - 3) 0 ++ argo a 1 ++ argo b 2 ++ callf addr f) ++ rest) ->
    forall s, G pc w M s -> exists s', xs s s' /\
      G (pc + zlen (argo (need - 3) 0 ++ argo a 1 ++ argo b 2 ++ callf addr f)) w' M s' /\ x_r s' RAX = v /\
      at_ (pc + zlen (argo (need - 3) 0 ++ argo a 1 ++ argo b 2 ++ callf addr f)) rest.
  Proof.
    intros E Fa Fb C A s Gs.
    pose proof (call_only [(0, need - 3); (1, a); (2, b)] f pc w M w' v rest) as K.
    unfold args in K. cbn [flat_map fst snd] in K. rewrite app_nil_r, <- !app_assoc in K.
    rewrite <- !app_assoc in A.
    apply K; auto.
    - split; [repeat constructor; cbn; intuition lia|].
      repeat constructor; cbn [fst snd]; try lia; first [apply inneed; lia|apply Fa|apply Fb].
    - rewrite E. reflexivity.
  Qed.

  Lemma math_blk f ops a b jm pc w M w' v : apos f = [0; 1; 2]%nat -> zlen ops <= 60 -> inframe a -> inframe b ->
    let x := M (B + slot a) in let y := M (B + slot b) in
    (Z.odd x = true -> Z.odd y = true -> opsok w ops x y jm) ->
    match (if Z.odd x && Z.odd y then jm else None) with
    | Some v' => w' = w /\ v = v'
    | None => rt f w [M (B + slot (need - 3)); x; y] = Ok (w', v)
    end ->
    at_ pc (x86_math addr true f ops need a b) ->
    blk pc w M (pc + zlen (x86_math addr true f ops need a b)) w' (setm M (B + slot a) v).
  Proof.
    intros Ef Lops Fa Fb x y Hops Hr A s Gs. unfold x86_math in *.
    set (slow := argo (need - 3) 0 ++ argo a 1 ++ argo b 2 ++ callf addr f) in *.
    assert (Ls : 0 <= zlen slow <= 33).
    { unfold slow. rewrite !zlen_app, zlen_callf.
      pose proof (zlen_argo (need - 3) 0 ltac:(lia)). pose proof (zlen_argo a 1 ltac:(destruct Fa; lia)).
      pose proof (zlen_argo b 2 ltac:(destruct Fb; lia)). lia. }
    rewrite (enc_ld_rax a), (enc_st_rax a), (enc_ld_rdx b) in * by (apply Fa || apply Fb).
    set (la := enc_reg 139 RAX (slot a)) in *. set (lb := enc_reg 139 RDX (slot b)) in *.
    set (sa := enc_reg 137 RAX (slot a)) in *.
    pose proof (zlen_nonneg ops) as Lo.
    change (zlen ([246; 194; 1] ++ [116; zlen (ops ++ [235; zlen slow])])) with 5 in *.
    rewrite (zlen_app ops) in *. change (zlen [235; zlen slow]) with 2 in *.
    rewrite <- !app_assoc in A. rewrite !zlen_app, !Z.add_assoc.
    change (zlen [246; 192; 1]) with 3. change (zlen [116; _]) with 2.
    change (zlen [246; 194; 1]) with 3. change (zlen [235; _]) with 2.
    destruct s as [pc0 R fl m w0]. destruct Gs as [g1 g2 g3 g4 g5]. cbn [x_pc x_r x_f x_m x_w] in *. subst pc0 w0.
    (* where the slow path is *)
    set (pslow := pc + zlen la + zlen lb + 3 + 2 + 3 + 2 + zlen ops + 2).
    assert (Aslow : at_ pslow (slow ++ sa)).
    { pose proof A as A'. do 8 apply at_skip in A'. exact A'. }
    assert (Slow : forall R' f' m', R' RBP = B -> R' RSP = Sp -> (forall ad, Sp <= ad -> m' ad = M ad) ->
      rt f w [M (B + slot (need - 3)); x; y] = Ok (w', v) ->
      exists s', xs (mkX pslow R' f' m' w) s' /\ G (pslow + zlen slow + zlen sa) w' (setm M (B + slot a) v) s').
    { intros R' f' m' r1 r2 r3 C.
      destruct (slow_blk f a b pslow w M w' v sa Ef Fa Fb C Aslow (mkX pslow R' f' m' w)) as ([pc2 R2 f2 m2 w2] & Y1 & Y2 & Y3 & Y4).
      { split; cbn; auto. }
      eapply xs_pre; [exact Y1|]. destruct Y2 as [y1 y2 y3 y4 y5]. cbn [x_pc x_r x_f x_m x_w] in *. subst pc2 w2 v.
      fold slow in Y4. fold slow. rewrite <- (app_nil_r sa) in Y4.
      eapply (st1 RAX); [reflexivity|exact Fa|exact y2|exact Y4|]. intros _. apply finish. apply G_put; auto. }
    eapply (ld1 RAX); [reflexivity|exact Fa|exact g2|exact A|]. fold la. clear A; intros A.
    eapply (ld1 RDX); [reflexivity|exact Fb|exact g2|exact A|]. fold lb. clear A; intros A.
    eapply (step1 [246; 192; 1] (XTest1 RAX)); [exact A|intros ?; reflexivity|go1|]. clear A; intros A.
    change (zlen [246; 192; 1]) with 3 in *.
    set (R2 := setr (setr R RAX (m (B + slot a))) RDX (m (B + slot b))) in *.
    assert (E1 : R2 RAX = x) by (unfold x; rewrite <- g5 by apply Fa; reflexivity).
    assert (E2 : R2 RDX = y) by (unfold y; rewrite <- g5 by apply Fb; reflexivity).
    assert (E3 : R2 RBP = B) by exact g2.
    assert (E4 : R2 RSP = Sp) by exact g3. clearbody R2.
    rewrite E1. 
    eapply (jcc1 CE); [|exact A|]; [lia|]. clear A; intros A. cbn [cond f_z].
    destruct (Z.odd x) eqn:Ox; cbn [negb andb] in *.
    2:{ replace (pc + zlen la + zlen lb + 3 + 2 + (5 + (zlen ops + 2))) with pslow by (unfold pslow; lia).
        apply Slow; auto. }
    eapply (step1 [246; 194; 1] (XTest1 RDX)); [exact A|intros ?; reflexivity|go1|]. clear A; intros A.
    change (zlen [246; 194; 1]) with 3 in *. rewrite E2.
    eapply (jcc1 CE); [|exact A|]; [lia|]. clear A; intros A. cbn [cond f_z].
    destruct (Z.odd y) eqn:Oy; cbn [negb andb] in *.
    2:{ replace (pc + zlen la + zlen lb + 3 + 2 + 3 + 2 + (zlen ops + 2)) with pslow by (unfold pslow; lia).
        apply Slow; auto. }
    destruct (Hops eq_refl eq_refl _ R2 (mkF false false false) m _ A E1 E2 eq_refl) as (s1 & Z1 & R3 & f3 & -> & Z2 & Z3 & Z4).
    eapply xs_pre; [exact Z1|].
    destruct jm as [v'|].
    - destruct Hr as [-> ->]. rewrite Z.add_0_r. pose proof (at_skip _ _ _ A) as A2.
      eapply jmp1; [|exact A2|]; [lia|].
      pose proof (at_skip _ _ _ Aslow) as A3. rewrite <- (app_nil_r sa) in A3. 
      replace (pc + zlen la + zlen lb + 3 + 2 + 3 + 2 + zlen ops + 2 + zlen slow) with (pslow + zlen slow) by (unfold pslow; lia).
      eapply (st1 RAX); [reflexivity|exact Fa|congruence|exact A3|]. intros _. apply finish.
      rewrite (Z4 v' eq_refl). apply G_put; auto; congruence.
    - apply Slow; auto; congruence.
  Qed.

  Ltac stp bs i A := eapply (step1 bs i); [exact A|intros ?; reflexivity|go1|]; clear A; intros A;
    match type of A with JitProofs.at_ _ (_ + zlen ?l) _ =>
      let n := eval vm_compute in (zlen l) in change (zlen l) with n in * end.
  Ltac rr := unfold setr; cbn [reg_eqb].

  Lemma ops_add w x y : opsok w ([72; 141; 68; 16; 255] ++ [112; 2]) x y (Some (u64 (x + y - 1))).
  Proof.
    intros pc R f m rest A Ea Ed Ef. rewrite <- app_assoc in A.
    stp [72; 141; 68; 16; 255] XLea A.
    eapply (jcc1 CO); [|exact A|]; [lia|]. clear A; intros A. cbn [cond]. rewrite Ef. apply finish.
    do 2 eexists. split; [|split; [|split]].
    - f_equal. cbv iota. change (zlen ([72; 141; 68; 16; 255] ++ [112; 2])) with 7. lia.
    - reflexivity.
    - reflexivity.
    - intros v [= <-]. rr. rewrite Ea, Ed. reflexivity.
  Qed.
  Lemma ops_sub w x y : opsok w ([72; 41; 208] ++ [112; 5] ++ [72; 255; 192]) x y
    (if ovf (s64 x - s64 y) then None else Some (u64 (u64 (x - y) + 1))).
  Proof.
    intros pc R f m rest A Ea Ed Ef. rewrite <- !app_assoc in A.
    stp [72; 41; 208] XSub A. rewrite Ea, Ed.
    eapply (jcc1 CO); [|exact A|]; [lia|]. clear A; intros A. cbn [cond flag_res f_o].
    change (zlen ([72; 41; 208] ++ [112; 5] ++ [72; 255; 192])) with 8.
    destruct (ovf (s64 x - s64 y)).
    - apply finish. do 2 eexists. split; [|split; [|split]].
      + f_equal. cbv iota. lia.
      + reflexivity.
      + reflexivity.
      + discriminate.
    - stp [72; 255; 192] XInc A. apply finish. do 2 eexists. split; [|split; [|split]].
      + f_equal. cbv iota. lia.
      + reflexivity.
      + reflexivity.
      + intros v [= <-]. reflexivity.
  Qed.
  Lemma ops_mult w x y :
    let p := s64 (u64 (x - 1)) * s64 (u64 (s64 y / 2)) in
    opsok w ([72; 209; 250] ++ [72; 255; 200] ++ [72; 15; 175; 194] ++ [112; 5] ++ [72; 255; 192]) x y
      (if ovf p then None else Some (u64 (u64 p + 1))).
  Proof.
    intros p pc R f m rest A Ea Ed Ef. rewrite <- !app_assoc in A.
    stp [72; 209; 250] (XSar RDX) A. stp [72; 255; 200] XDec A. stp [72; 15; 175; 194] XImul A.
    eapply (jcc1 CO); [|exact A|]; [lia|]. clear A; intros A. cbn [cond f_o].
    change (zlen ([72; 209; 250] ++ [72; 255; 200] ++ [72; 15; 175; 194] ++ [112; 5] ++ [72; 255; 192])) with 15.
    match goal with |- context [ovf (s64 ?u * s64 ?v)] => set (P := s64 u * s64 v) end.
    assert (E : P = p) by (subst P p; unfold setr; cbn [reg_eqb]; rewrite Ea, Ed; reflexivity).
    rewrite E. clearbody P p. destruct (ovf p).
    - apply finish. do 2 eexists. split; [|split; [|split]].
      + f_equal. cbv iota. lia.
      + reflexivity.
      + reflexivity.
      + discriminate.
    - stp [72; 255; 192] XInc A. apply finish. do 2 eexists. split; [|split; [|split]].
      + f_equal. cbv iota. lia.
      + reflexivity.
      + reflexivity.
      + intros v [= <-]. reflexivity.
  Qed.
  Definition divops (rem : bool) : list Z :=
    [209; 248; 209; 250; 137; 209; 137; 194; 193; 250; 31; 247; 249; 141; 68; if rem then 18 else 0; 1].
  Lemma ops_div w rem x y v : jdiv rem x y = Ok v -> opsok w (divops rem) x y (Some v).
  Proof.
    intros D pc R f m rest A Ea Ed Ef.
    change (divops rem ++ rest) with ([209; 248] ++ [209; 250] ++ [137; 209] ++ [137; 194] ++ [193; 250; 31] ++ [247; 249]
      ++ [141; 68; if rem then 18 else 0; 1] ++ rest) in A.
    stp [209; 248] (XSar32 RAX) A. stp [209; 250] (XSar32 RDX) A. stp [137; 209] (XMov32 RCX RDX) A.
    stp [137; 194] (XMov32 RDX RAX) A. stp [193; 250; 31] XCdq A.
    unfold jdiv in D.
    set (n := s32 x / 2) in *. set (k := s32 y / 2) in *.
    assert (Hn : -1073741824 <= n < 1073741824) by (pose proof (s32_range x); unfold n; lia).
    assert (Hk : -1073741824 <= k < 1073741824) by (pose proof (s32_range y); unfold k; lia).
    rewrite u32_u32, !s32_u32 in D by lia.
    destruct (k =? 0) eqn:K0; [discriminate|].
    pose proof (quot_bound n k Hn ltac:(lia)) as Q.
    match goal with |- context [mkX ?pc ?r ?f m w] => set (R5 := r); set (f5 := f) end.
    assert (V1 : R5 RAX = u32 n) by (subst R5; unfold setr; cbn [reg_eqb]; rewrite Ea; reflexivity).
    assert (V2 : R5 RDX = u32 (s32 (u32 (u32 n)) / 2147483648)) by (subst R5; unfold setr; cbn [reg_eqb]; rewrite Ea; reflexivity).
    assert (V3 : R5 RCX = u32 (u32 k)) by (subst R5; unfold setr; cbn [reg_eqb]; rewrite Ed; reflexivity).
    assert (V4 : R5 RBP = R RBP) by reflexivity. assert (V5 : R5 RSP = R RSP) by reflexivity. clearbody R5 f5.
    eapply (step1 [247; 249] XIdiv32); [exact A|intros ?; reflexivity| |].
    { cbn [exec x_r x_m x_f x_w x_pc]. rewrite V1, V2, V3, cdq_s64 by exact Hn. rewrite u32_u32, s32_u32 by lia. rewrite K0.
      replace ((Z.quot n k <? -2147483648) || (2147483647 <? Z.quot n k)) with false by lia. reflexivity. }
    clear A; intros A. change (zlen [247; 249]) with 2 in *.
    eapply (step1 [141; 68; if rem then 18 else 0; 1] (XLea32 (if rem then RDX else RAX)));
      [exact A|intros ?; destruct rem; reflexivity|go1|]. clear A; intros A.
    change (zlen [141; 68; _; 1]) with 4 in *.
    apply finish. do 2 eexists. split; [|split; [|split]].
    - f_equal. cbv iota. change (zlen (divops rem)) with 17. lia.
    - unfold setr. cbn [reg_eqb]. exact V4.
    - unfold setr. cbn [reg_eqb]. exact V5.
    - intros v' [= <-]. injection D as <-. destruct rem; reflexivity.
  Qed.

  Lemma zlen_movq_eq a x : 0 <= a -> zlen (movq a x) = if 15 <? a then 17 else 14.
  Proof.
    intros H. rewrite movq_enc by exact H. unfold ASMN. rewrite !zlen_app, zlen_le, zlen_enc by reflexivity.
    change (zlen [72; 184]) with 2. unfold slot. destruct (_ <? -128) eqn:E1, (15 <? a) eqn:E2; lia.
  Qed.

  Lemma bitn_blk a b pc w M w' v : inframe a -> inframe b ->
    let x := M (B + slot a) in let y := M (B + slot b) in
    (if Z.odd x then w' = w /\ v = u64 (two64 - 1 - x + 1)
     else rt F_obj_bitn w [M (B + slot (need - 3)); x; y] = Ok (w', v)) ->
    at_ pc (x86_math addr false F_obj_bitn ([72; 247; 208] ++ [72; 255; 192]) need a b) ->
    blk pc w M (pc + zlen (x86_math addr false F_obj_bitn ([72; 247; 208] ++ [72; 255; 192]) need a b)) w' (setm M (B + slot a) v).
  Proof.
    intros Fa Fb x y Hr A s Gs. unfold x86_math in *.
    set (slow := argo (need - 3) 0 ++ argo a 1 ++ argo b 2 ++ callf addr F_obj_bitn) in *.
    assert (Ls : 0 <= zlen slow <= 33).
    { unfold slow. rewrite !zlen_app, zlen_callf.
      pose proof (zlen_argo (need - 3) 0 ltac:(lia)). pose proof (zlen_argo a 1 ltac:(destruct Fa; lia)).
      pose proof (zlen_argo b 2 ltac:(destruct Fb; lia)). lia. }
    rewrite (enc_ld_rax a), (enc_st_rax a) in * by (apply Fa || apply Fb).
    set (la := enc_reg 139 RAX (slot a)) in *.
    set (sa := enc_reg 137 RAX (slot a)) in *.
    rewrite (zlen_app ([72; 247; 208] ++ [72; 255; 192])) in *. change (zlen [235; zlen slow]) with 2 in *.
    change (zlen ([72; 247; 208] ++ [72; 255; 192])) with 6 in *. change (zlen (@nil Z)) with 0 in *.
    rewrite <- !app_assoc in A. cbn [app] in A.
    change (246 :: 192 :: 1 :: 116 :: 0 + (6 + 2) :: 72 :: 247 :: 208 :: 72 :: 255 :: 192 :: 235 :: zlen slow :: slow ++ sa)
      with ([246; 192; 1] ++ [116; 8] ++ [72; 247; 208] ++ [72; 255; 192] ++ [235; zlen slow] ++ slow ++ sa) in A.
    cbn [app]. rewrite (zlen_app la), !zlen_cons', zlen_app.
    destruct s as [pc0 R fl m w0]. destruct Gs as [g1 g2 g3 g4 g5]. cbn [x_pc x_r x_f x_m x_w] in *. subst pc0 w0.
    set (pslow := pc + zlen la + 3 + 2 + 3 + 3 + 2).
    assert (Aslow : at_ pslow (slow ++ sa)) by (pose proof A as A'; do 6 apply at_skip in A'; exact A').
    match goal with |- exists s', xs _ s' /\ G ?p _ _ _ => replace p with (pslow + zlen slow + zlen sa) by (unfold pslow; lia) end.
    eapply (ld1 RAX); [reflexivity|exact Fa|exact g2|exact A|]. fold la. clear A; intros A.
    eapply (step1 [246; 192; 1] (XTest1 RAX)); [exact A|intros ?; reflexivity|go1|]. clear A; intros A.
    change (zlen [246; 192; 1]) with 3 in *.
    set (R2 := setr R RAX (m (B + slot a))) in *.
    assert (E1 : R2 RAX = x) by (unfold x; rewrite <- g5 by apply Fa; reflexivity).
    assert (E3 : R2 RBP = B) by exact g2.
    assert (E4 : R2 RSP = Sp) by exact g3. clearbody R2.
    rewrite E1. 
    eapply (jcc1 CE); [|exact A|]; [lia|]. clear A; intros A. cbn [cond f_z].
    destruct (Z.odd x) eqn:Ox; cbn [negb] in *.
    - destruct Hr as [-> ->].
      stp [72; 247; 208] XNot A. stp [72; 255; 192] XInc A.
      eapply jmp1; [|exact A|]; [lia|].
      pose proof (at_skip _ _ _ Aslow) as A3. rewrite <- (app_nil_r sa) in A3.
      replace (pc + zlen la + 3 + 2 + 3 + 3 + 2 + zlen slow) with (pslow + zlen slow) by (unfold pslow; lia).
      eapply (st1 RAX); [reflexivity|exact Fa|exact E3|exact A3|]. intros _. apply finish. fold sa.
      unfold setr. cbn [reg_eqb]. rewrite E1. apply G_put; auto.
    - replace (pc + zlen la + 3 + 2 + 8) with pslow by (unfold pslow; lia).
      destruct (slow_blk F_obj_bitn a b pslow w M w' v sa eq_refl Fa Fb Hr Aslow (mkX pslow R2 (mkF true false false) m w)) as ([pc2 R3 f2 m2 w2] & Y1 & Y2 & Y3 & Y4).
      { split; cbn; auto. }
      eapply xs_pre; [exact Y1|]. destruct Y2 as [y1 y2 y3 y4 y5]. cbn [x_pc x_r x_f x_m x_w] in *. subst pc2 w2 v.
      fold slow in Y4. fold slow. rewrite <- (app_nil_r sa) in Y4.
      eapply (st1 RAX); [reflexivity|exact Fa|exact y2|exact Y4|]. intros _. apply finish. apply G_put; auto.
  Qed.

  Lemma enc_ld_rdx' r rest : 0 <= r -> [72; 139] ++ mov_ebp 85 r ++ rest = enc_reg 139 RDX (slot r) ++ rest.
  Proof. intros H. rewrite app_assoc, enc_ld_rdx by exact H. reflexivity. Qed.
  (** ** Comparison of integers *)
  Definition cc_of (o : opc) : cc := match o with O_LT => CL | O_LTE => CLE | O_GT => CG | _ => CGE end.
  Lemma s64_range x : - two63 <= s64 x < two63.
  Proof. unfold s64, two63, two64. lia. Qed.
  Lemma cmp_flags x y :
    flag_res (u64 (x - y)) (ovf (s64 x - s64 y)) =
    mkF (s64 x =? s64 y) (s64 (x - y) <? 0) (ovf (s64 x - s64 y)).
  Proof.
    unfold flag_res. f_equal.
    - unfold u64, s64, two63, two64. lia.
    - f_equal. unfold u64, s64, two63, two64. lia.
  Qed.
  Lemma cmp_lt x y : xorb (s64 (x - y) <? 0) (ovf (s64 x - s64 y)) = (s64 x <? s64 y).
  Proof.
    assert (E : s64 (x - y) = s64 (s64 x - s64 y)) by (unfold s64, two63, two64; lia).
    rewrite E. pose proof (s64_range x). pose proof (s64_range y).
    clear E. revert H H0. generalize (s64 x). generalize (s64 y). clear x y.
    intros Q P HP HQ. unfold ovf, in_long, s64, two63, two64 in *.
    destruct (P <? Q) eqn:L.
    - destruct (_ && _) eqn:I; cbn [negb].
      + replace ((P - Q + 9223372036854775808) mod 18446744073709551616 - 9223372036854775808 <? 0) with true by lia. reflexivity.
      + replace ((P - Q + 9223372036854775808) mod 18446744073709551616 - 9223372036854775808 <? 0) with false by lia. reflexivity.
    - destruct (_ && _) eqn:I; cbn [negb].
      + replace ((P - Q + 9223372036854775808) mod 18446744073709551616 - 9223372036854775808 <? 0) with false by lia. reflexivity.
      + replace ((P - Q + 9223372036854775808) mod 18446744073709551616 - 9223372036854775808 <? 0) with true by lia. reflexivity.
  Qed.
  Lemma cmp_cond o x y : In o [O_LT; O_LTE; O_GT; O_GTE] ->
    cond (cc_of o) (flag_res (u64 (x - y)) (ovf (s64 x - s64 y))) = jcmp o x y.
  Proof.
    intros I. rewrite cmp_flags. destruct I as [<-|[<-|[<-|[<-|[]]]]]; cbn [cc_of cond f_z f_s f_o jcmp]; rewrite cmp_lt; lia.
  Qed.
  Definition xop_of (o : opc) : Z := match o with O_LT => 114 | O_LTE => 118 | O_GT => 119 | _ => 115 end.

  Section Num.
    Context (o : opc) (Ho : In o [O_LT; O_LTE; O_GT; O_GTE]) (a b pc : Z) (w : W) (M : Z -> Z).
    Context (Fa : inframe a) (Fb : inframe b).
    Let x := M (B + slot a).
    Let y := M (B + slot b).
    Context (Ox : Z.odd x = true) (Oy : Z.odd y = true).
    Context (A : at_ pc (x86_numcmp (enc_cc (cc_of o)) (xop_of o) a b)).
    Let tm := zlen (movq a PN_TRUE).
    (** up to the decision *)
    Lemma numcmp_pre :
      exists pf, pf + zlen (movq a PN_FALSE) + 2 + tm = pc + zlen (x86_numcmp (enc_cc (cc_of o)) (xop_of o) a b) /\
        at_ pf (movq a PN_FALSE ++ [235; 14 + (if 31 <? a then 3 else 0)] ++ movq a PN_TRUE) /\
        forall s, G pc w M s -> exists s', xs s s' /\
          G (if jcmp o x y then pf + zlen (movq a PN_FALSE) + 2 else pf) w M s'.
    Proof.
      unfold x86_numcmp in *.
      rewrite (enc_ld_rax b), (enc_ld_rdx' a) in * by (apply Fa || apply Fb).
      set (la := enc_reg 139 RAX (slot b)) in *. set (lb := enc_reg 139 RDX (slot a)) in *.
      assert (Ltm : zlen (movq a PN_TRUE) = tm) by reflexivity.
      assert (Lfm : zlen (movq a PN_FALSE) = tm).
      { unfold tm. rewrite !zlen_movq_eq by apply Fa. reflexivity. }
      assert (Htm : 0 <= tm <= 17) by (unfold tm; apply zlen_movq; apply Fa).
      clearbody tm.
      rewrite (zlen_app (movq a PN_FALSE)) in *. rewrite Lfm in *.
      change (zlen [235; 14 + _]) with 2 in *.
      set (da := [242; 15; 16; 66; 8] ++ [102; 15; 239; 201] ++ [72; 209; 248] ++ [242; 72; 15; 42; 200] ++ _) in *.
      set (db := [242; 15; 16; 72; 8] ++ _) in *.
      set (cd := [102; 15; 46; 193] ++ _) in *.
      change (zlen da) with 19 in *. change (zlen db) with 29 in *. change (zlen cd) with 6 in *.
      assert (Lda : zlen da = 19) by reflexivity. assert (Ldb : zlen db = 29) by reflexivity.
      assert (Lcd : zlen cd = 6) by reflexivity.
      clearbody da db cd.
      change (zlen ([72; 57; 194] ++ _ ++ _)) with 7 in *.
      change (zlen ([246; 194; 1] ++ _)) with 5 in *.
      rewrite <- !app_assoc in A.
      set (pf := pc + zlen lb + zlen la + 2 + 2 + 3 + 2 + 3 + 2 + 2 + 19 + 29 + 6).
      exists pf. split; [|split].
      - rewrite !zlen_app, Lda, Ldb, Lcd, Ltm, Lfm. change (zlen [168; 1]) with 2. change (zlen [116; _]) with 2.
        change (zlen [246; 194; 1]) with 3. change (zlen [72; 57; 194]) with 3. change (zlen [235; _]) with 2.
        change (zlen [_; _]) with 2. unfold pf. lia.
      - pose proof A as A'. do 12 apply at_skip in A'. rewrite Lda, Ldb, Lcd in A'. exact A'.
      - intros [pc0 R f m w0] [g1 g2 g3 g4 g5]. cbn [x_pc x_r x_f x_m x_w] in *. subst pc0 w0.
        eapply (ld1 RDX); [reflexivity|exact Fa|exact g2|exact A|]. fold lb. clear A; intros A.
        eapply (ld1 RAX); [reflexivity|exact Fb|exact g2|exact A|]. fold la. clear A; intros A.
        set (R2 := setr (setr R RDX (m (B + slot a))) RAX (m (B + slot b))) in *.
        assert (E1 : R2 RAX = y) by (unfold y; rewrite <- g5 by apply Fb; reflexivity).
        assert (E2 : R2 RDX = x) by (unfold x; rewrite <- g5 by apply Fa; reflexivity).
        assert (E3 : R2 RBP = B) by exact g2.
        assert (E4 : R2 RSP = Sp) by exact g3. clearbody R2.
        stp [168; 1] (XTest1 RAX) A. rewrite E1, Oy.
        eapply (jcc1 CE); [|exact A|]; [lia|]. clear A; intros A. cbn [cond f_z negb].
        stp [246; 194; 1] (XTest1 RDX) A. rewrite E2, Ox.
        eapply (jcc1 CE); [|exact A|]; [lia|]. clear A; intros A. cbn [cond f_z negb].
        stp [72; 57; 194] XCmp A. rewrite E1, E2.
        eapply (jcc1 (cc_of o)); [|exact A|]; [lia|]. clear A; intros A. rewrite (cmp_cond o x y Ho).
        destruct (jcmp o x y).
        + apply finish. split; cbn [x_pc x_r x_f x_m x_w]; auto. unfold pf. lia.
        + eapply jmp1; [|exact A|]; [lia|]. apply finish. split; cbn [x_pc x_r x_f x_m x_w]; auto. unfold pf. lia.
    Qed.
    Lemma numcmp_blk : (jcmp o x y = false -> a <= 15 \/ 31 < a) ->
      blk pc w M (pc + zlen (x86_numcmp (enc_cc (cc_of o)) (xop_of o) a b)) w
        (setm M (B + slot a) (if jcmp o x y then PN_TRUE else PN_FALSE)).
    Proof.
      intros Hw s Gs. destruct numcmp_pre as (pf & E & A2 & K).
      destruct (K s Gs) as ([pc0 R f m w0] & Y1 & [g1 g2 g3 g4 g5]). cbn [x_pc x_r x_f x_m x_w] in *. subst pc0 w0.
      eapply xs_pre; [exact Y1|]. rewrite <- E. destruct (jcmp o x y) eqn:J.
      - do 2 apply at_skip in A2. change (zlen [235; _]) with 2 in A2. rewrite <- (app_nil_r (movq a PN_TRUE)) in A2.
        eapply movq1; [exact Fa|exact g2|exact A2|]. intros _. apply finish. fold tm.
        change (u64 PN_TRUE) with PN_TRUE. apply G_put; auto.
      - specialize (Hw eq_refl). eapply movq1; [exact Fa|exact g2|exact A2|]. clear A2; intros A2.
        change (u64 PN_FALSE) with PN_FALSE.
        eapply jmp1; [|exact A2|]; [destruct (31 <? a); lia|]. apply finish.
        replace (pf + zlen (movq a PN_FALSE) + 2 + (14 + (if 31 <? a then 3 else 0))) with (pf + zlen (movq a PN_FALSE) + 2 + tm).
        + apply G_put; auto.
        + unfold tm. rewrite (zlen_movq_eq a PN_TRUE) by apply Fa. destruct (15 <? a) eqn:E1, (31 <? a) eqn:E2; lia.
    Qed.
  End Num.

  (** ** Truth tests and jumps *)
  (** load, compare with false and with nil: the two conditional jumps decide [jtest] *)
  Lemma test_blk t a pc w M : inframe a -> at_ pc (x86_test t a) ->
    blk pc w M (pc + zlen (x86_test t a)) w
      (setm M (B + slot a) (if jtest (M (B + slot a)) then (if t then PN_FALSE else PN_TRUE) else (if t then PN_TRUE else PN_FALSE))).
  Proof.
    intros Fa A [pc0 R f m w0] [g1 g2 g3 g4 g5]. cbn [x_pc x_r x_f x_m x_w] in *. subst pc0 w0.
    unfold x86_test in *. rewrite (enc_ld_rax a) in * by apply Fa. set (la := enc_reg 139 RAX (slot a)) in *.
    set (vf := if t then PN_TRUE else PN_FALSE) in *. set (vt := if t then PN_FALSE else PN_TRUE) in *.
    assert (Hvf : u64 vf = vf) by (unfold vf; destruct t; reflexivity).
    assert (Hvt : u64 vt = vt) by (unfold vt; destruct t; reflexivity). clearbody vf vt.
    pose proof (zlen_movq a vf ltac:(apply Fa)) as Lf. pose proof (zlen_movq a vt ltac:(apply Fa)) as Lt.
    set (mf := zlen (movq a vf)) in *.
    rewrite (zlen_app (movq a vt)) in *. set (mt := zlen (movq a vt)) in *.
    change (zlen [235; mf]) with 2 in *. change (zlen ([72; 133; 192] ++ _)) with 5 in *.
    rewrite <- !app_assoc in A. rewrite !zlen_app. fold mt mf.
    change (zlen [72; 131; 248; _]) with 4. change (zlen [72; 133; 192]) with 3. change (zlen [_; _]) with 2.
    set (pt := pc + zlen la + 4 + 2 + 3 + 2).
    assert (At : at_ pt (movq a vt ++ [235; mf] ++ movq a vf)) by (pose proof A as A'; do 5 apply at_skip in A'; exact A').
    assert (Af : at_ (pt + mt + 2) (movq a vf)) by (pose proof At as A'; do 2 apply at_skip in A'; exact A').
    eapply (ld1 RAX); [reflexivity|exact Fa|exact g2|exact A|]. fold la. clear A; intros A.
    set (R2 := setr R RAX (m (B + slot a))) in *. set (x := M (B + slot a)).
    assert (E1 : R2 RAX = x) by (unfold x; rewrite <- g5 by apply Fa; reflexivity).
    assert (E3 : R2 RBP = B) by exact g2.
    assert (E4 : R2 RSP = Sp) by exact g3. clearbody R2 x.
    assert (False_ : forall f', exists s', xs (mkX (pt + mt + 2) R2 f' m w) s' /\
       G (pc + (zlen la + (4 + (2 + (3 + 2 + (mt + 2 + mf)))))) w (setm M (B + slot a) vf) s').
    { intros f'. rewrite <- (app_nil_r (movq a vf)) in Af. eapply movq1; [exact Fa|exact E3|exact Af|]. intros _. apply finish.
      rewrite Hvf. fold mf. replace (pt + mt + 2 + mf) with (pc + (zlen la + (4 + (2 + (3 + 2 + (mt + 2 + mf)))))) by (unfold pt; lia).
      apply G_put; auto. }
    eapply (step1 [72; 131; 248; PN_FALSE] (XCmpI PN_FALSE)); [exact A|intros ?; reflexivity|go1|]. clear A; intros A.
    change (zlen [72; 131; 248; PN_FALSE]) with 4 in *. rewrite E1.
    eapply (jcc1 CE); [|exact A|]; [lia|]. clear A; intros A. cbn [cond f_z flag_res].
    unfold jtest. destruct (u64 (x - PN_FALSE) =? 0); cbn [negb andb].
    { replace (pc + zlen la + 4 + 2 + (5 + (mt + 2))) with (pt + mt + 2) by (unfold pt; lia). apply False_. }
    stp [72; 133; 192] XTest A. rewrite E1.
    eapply (jcc1 CE); [|exact A|]; [lia|]. clear A; intros A. cbn [cond f_z flag_res].
    destruct (x =? 0); cbn [negb].
    { replace (pc + zlen la + 4 + 2 + 3 + 2 + (mt + 2)) with (pt + mt + 2) by (unfold pt; lia). apply False_. }
    eapply movq1; [exact Fa|exact E3|exact A|]. clear A; intros A.
    eapply jmp1; [|exact A|]; [lia|]. apply finish. rewrite Hvt. fold mt.
    replace (pc + zlen la + 4 + 2 + 3 + 2 + mt + 2 + mf) with (pc + (zlen la + (4 + (2 + (3 + 2 + (mt + 2 + mf)))))) by lia.
    apply G_put; auto.
  Qed.
  Lemma G_same pc (w : W) M R f m (w' : W) pc' : R RBP = B -> R RSP = Sp -> (forall ad, Sp <= ad -> m ad = M ad) -> w' = w -> pc' = pc ->
    G pc w M (mkX pc' R f m w').
  Proof. intros. split; cbn; auto. Qed.
  Lemma jmp32 d rest pc R f m w (P : xst W -> Prop) : -2147483648 <= d < 2147483648 -> at_ pc (([233] ++ ASMI d) ++ rest) ->
    (exists s', xs (mkX (pc + 5 + d) R f m w) s' /\ P s') -> exists s', xs (mkX pc R f m w) s' /\ P s'.
  Proof.
    intros D A K. eapply (step1 ([233] ++ ASMI d) (XJmp d)); [exact A|apply decs_jmp32; exact D|go1|intros _].
    unfold ASMI. rewrite zlen_app, zlen_le. exact K.
  Qed.
  Lemma jmp_blk d pc w M : -2147483648 <= d < 2147483648 -> at_ pc ([233] ++ ASMI d) -> blk pc w M (pc + zlen ([233] ++ ASMI d) + d) w M.
  Proof.
    intros D A [pc0 R f m w0] [g1 g2 g3 g4 g5]. cbn [x_pc x_r x_f x_m x_w] in *. subst pc0 w0.
    rewrite <- (app_nil_r (_ ++ _)) in A. eapply jmp32; [exact D|exact A|]. apply finish. apply G_same; auto.
  Qed.
  Lemma testjmp_blk a d pc w M : inframe a -> -2147483648 <= d < 2147483648 ->
    let bs := mov_rbp 139 a ++ [72; 131; 248; PN_FALSE] ++ [116; 10] ++ [72; 133; 192] ++ [116; 5] ++ [233] ++ ASMI d in
    at_ pc bs -> blk pc w M (pc + zlen bs + (if jtest (M (B + slot a)) then d else 0)) w M.
  Proof.
    intros Fa D bs A [pc0 R f m w0] [g1 g2 g3 g4 g5]. cbn [x_pc x_r x_f x_m x_w] in *. subst pc0 w0.
    unfold bs in *. rewrite (enc_ld_rax a) in * by apply Fa. set (la := enc_reg 139 RAX (slot a)) in *.
    assert (L : zlen (la ++ [72; 131; 248; PN_FALSE] ++ [116; 10] ++ [72; 133; 192] ++ [116; 5] ++ [233] ++ ASMI d) = zlen la + 16).
    { unfold ASMI. rewrite !zlen_app, zlen_le. reflexivity. }
    rewrite L. clear L bs.
    eapply (ld1 RAX); [reflexivity|exact Fa|exact g2|exact A|]. fold la. clear A; intros A.
    set (R2 := setr R RAX (m (B + slot a))) in *. set (x := M (B + slot a)).
    assert (E1 : R2 RAX = x) by (unfold x; rewrite <- g5 by apply Fa; reflexivity).
    assert (E3 : R2 RBP = B) by exact g2.
    assert (E4 : R2 RSP = Sp) by exact g3. clearbody R2 x.
    eapply (step1 [72; 131; 248; PN_FALSE] (XCmpI PN_FALSE)); [exact A|intros ?; reflexivity|go1|]. clear A; intros A.
    change (zlen [72; 131; 248; PN_FALSE]) with 4 in *. rewrite E1.
    eapply (jcc1 CE); [|exact A|]; [lia|]. clear A; intros A. cbn [cond f_z flag_res].
    unfold jtest. destruct (u64 (x - PN_FALSE) =? 0); cbn [negb andb].
    { apply finish. apply G_same; auto. lia. }
    stp [72; 133; 192] XTest A. rewrite E1.
    eapply (jcc1 CE); [|exact A|]; [lia|]. clear A; intros A. cbn [cond f_z flag_res].
    destruct (x =? 0); cbn [negb].
    { apply finish. apply G_same; auto. lia. }
    rewrite <- (app_nil_r (_ ++ _)) in A. eapply jmp32; [exact D|exact A|]. apply finish. apply G_same; auto. lia.
  Qed.
  Lemma notjmp_blk a d pc w M : inframe a -> -2147483648 <= d < 2147483648 ->
    let bs := mov_rbp 139 a ++ [72; 131; 248; PN_FALSE] ++ [116; 5] ++ [72; 133; 192] ++ [117; 5] ++ [233] ++ ASMI d in
    at_ pc bs -> blk pc w M (pc + zlen bs + (if jtest (M (B + slot a)) then 0 else d)) w M.
  Proof.
    intros Fa D bs A [pc0 R f m w0] [g1 g2 g3 g4 g5]. cbn [x_pc x_r x_f x_m x_w] in *. subst pc0 w0.
    unfold bs in *. rewrite (enc_ld_rax a) in * by apply Fa. set (la := enc_reg 139 RAX (slot a)) in *.
    assert (L : zlen (la ++ [72; 131; 248; PN_FALSE] ++ [116; 5] ++ [72; 133; 192] ++ [117; 5] ++ [233] ++ ASMI d) = zlen la + 16).
    { unfold ASMI. rewrite !zlen_app, zlen_le. reflexivity. }
    rewrite L. clear L bs.
    assert (Aj : at_ (pc + zlen la + 4 + 2 + 3 + 2) (([233] ++ ASMI d) ++ [])).
    { rewrite app_nil_r. pose proof A as A'. do 5 apply at_skip in A'. exact A'. }
    eapply (ld1 RAX); [reflexivity|exact Fa|exact g2|exact A|]. fold la. clear A; intros A.
    set (R2 := setr R RAX (m (B + slot a))) in *. set (x := M (B + slot a)).
    assert (E1 : R2 RAX = x) by (unfold x; rewrite <- g5 by apply Fa; reflexivity).
    assert (E3 : R2 RBP = B) by exact g2.
    assert (E4 : R2 RSP = Sp) by exact g3. clearbody R2 x.
    eapply (step1 [72; 131; 248; PN_FALSE] (XCmpI PN_FALSE)); [exact A|intros ?; reflexivity|go1|]. clear A; intros A.
    change (zlen [72; 131; 248; PN_FALSE]) with 4 in *. rewrite E1.
    eapply (jcc1 CE); [|exact A|]; [lia|]. clear A; intros A. cbn [cond f_z flag_res].
    unfold jtest. destruct (u64 (x - PN_FALSE) =? 0); cbn [negb andb].
    { replace (pc + zlen la + 4 + 2 + 5) with (pc + zlen la + 4 + 2 + 3 + 2) by lia.
      eapply jmp32; [exact D|exact Aj|]. apply finish. apply G_same; auto. lia. }
    stp [72; 133; 192] XTest A. rewrite E1.
    eapply (jcc1 CNE); [|exact A|]; [lia|]. clear A; intros A. cbn [cond f_z flag_res].
    destruct (x =? 0); cbn [negb].
    - eapply jmp32; [exact D|exact Aj|]. apply finish. apply G_same; auto. lia.
    - apply finish. apply G_same; auto. lia.
  Qed.
  (** ** Constants *)
  Lemma loadk_blk a b pc w M w' vt v : inframe a -> 0 <= b < 65536 ->
    rt F_values w [M (B + slot (need - 3)); M (B + slot (need - 2))] = Ok (w', vt) ->
    xh_load X w' (u64 (u64 (vt + (16 + b * 8)) + 0)) = Ok v ->
    let bs := argo (need - 3) 0 ++ argo (need - 2) 1 ++ callf addr F_values ++ [72; 5] ++ ASMI (16 + b * 8) ++ [72; 139; 0] ++ mov_rbp 137 a in
    at_ pc bs -> blk pc w M (pc + zlen bs) w' (setm M (B + slot a) v).
  Proof.
    intros Fa Hb C Ld bs A s Gs. unfold bs in *. clear bs.
    set (rest := [72; 5] ++ ASMI (16 + b * 8) ++ [72; 139; 0] ++ mov_rbp 137 a) in *.
    pose proof (call_only [(0, need - 3); (1, need - 2)] F_values pc w M w' vt rest) as K.
    unfold args in K. cbn [flat_map fst snd] in K. rewrite app_nil_r, <- !app_assoc in K.
    assert (P0 : posok [(0, need - 3); (1, need - 2)]).
    { split; [repeat constructor; cbn; intuition lia|].
      repeat constructor; cbn [fst snd]; try lia; apply inneed; lia. }
    specialize (K P0 eq_refl C A). rewrite <- ?app_assoc in K.
    destruct (K s Gs) as ([pc2 R2 f2 m2 w2] & Y1 & [y1 y2 y3 y4 y5] & Y3 & Y4). clear K.
    eapply xs_pre; [exact Y1|]. cbn [x_pc x_r x_f x_m x_w] in *. subst pc2 w2.
    set (p := pc + zlen (argo (need - 3) 0 ++ argo (need - 2) 1 ++ callf addr F_values)) in *.
    replace (pc + zlen (argo (need - 3) 0 ++ argo (need - 2) 1 ++ callf addr F_values ++ rest)) with (p + zlen rest)
      by (unfold p; rewrite !zlen_app; lia). clearbody p. clear A Y1 Gs P0. unfold rest in *. clear rest.
    rewrite (enc_st_rax a) in * by apply Fa.
    rewrite app_assoc in Y4.
    eapply step1; [exact Y4|apply decs_addi; lia|go1|]. clear Y4; intros A. rewrite Y3.
    eapply (step1 [72; 139; 0] (XLdA 0)); [exact A|intros ?; reflexivity| |].
    { cbn [exec x_r x_m x_f x_w x_pc]. unfold setr at 1. cbn [reg_eqb]. rewrite Ld. reflexivity. }
    clear A; intros A. rewrite <- (app_nil_r (enc_reg 137 _ _)) in A.
    eapply (st1 RAX); [reflexivity|exact Fa|exact y2|exact A|]. intros _. apply finish.
    match goal with |- G ?q _ _ (mkX ?r _ _ _ _) => replace q with r end.
    2:{ unfold ASMI. rewrite !zlen_app. change (zlen [72; 5]) with 2. change (zlen [72; 139; 0]) with 3. lia. }
    apply G_put; auto.
  Qed.
  (** ** Elements of a tuple *)
  Lemma decs_movdi d : - 2147483648 <= d < 2147483648 -> decs ([72; 199; 194] ++ ASMI d) (XMovDxI d).
  Proof.
    intros Hd rest. unfold ASMI. rewrite <- app_assoc. rewrite zlen_app, zlen_le.
    change (dec ([72; 199; 194] ++ le_bytes 4 d ++ rest)) with
      (match take_n 4 (le_bytes 4 d ++ rest) with Some (d, _) => Some (XMovDxI (s32 (le_val d)), 7) | None => None end).
    rewrite take4, le4_s32 by exact Hd. reflexivity.
  Qed.
  Definition index_code (b : Z) : list Z :=
    if negb (Z.land b ASM_TPL_IMM =? 0)
    then [72; 139] ++ mov_ebp 85 (b - ASM_TPL_IMM) ++ [72; 209; 234] ++ [72; 139; 68; 208; 16]
    else [72; 199; 194] ++ ASMI (b + 2) ++ [72; 139; 4; 208].
  Lemma gettuple_blk a b pc w M w' t i v : inframe a ->
    (if negb (Z.land b ASM_TPL_IMM =? 0) then inframe (b - ASM_TPL_IMM) /\ i = PN_INT (M (B + slot (b - ASM_TPL_IMM)))
     else 0 <= b < ASM_TPL_IMM /\ i = b) ->
    rt F_fwd w [M (B + slot a)] = Ok (w', t) ->
    xh_load X w' (u64 (t + (16 + i * 8))) = Ok v ->
    let bs := argo a 0 ++ callf addr F_fwd ++ index_code b ++ mov_rbp 137 a in
    at_ pc bs -> blk pc w M (pc + zlen bs) w' (setm M (B + slot a) v).
  Proof.
    intros Fa Hb C Ld bs A s Gs. unfold bs in *. clear bs.
    pose proof (call_only [(0, a)] F_fwd pc w M w' t (index_code b ++ mov_rbp 137 a)) as K.
    unfold args in K. cbn [flat_map fst snd] in K. rewrite app_nil_r in K.
    assert (P0 : posok [(0, a)]).
    { split; [repeat constructor; cbn; intuition lia|]. constructor; [cbn [fst snd]; split; [lia|assumption]|constructor]. }
    specialize (K P0 eq_refl C A).
    destruct (K s Gs) as ([pc2 R2 f2 m2 w2] & Y1 & [y1 y2 y3 y4 y5] & Y3 & Y4). clear K.
    eapply xs_pre; [exact Y1|]. cbn [x_pc x_r x_f x_m x_w] in *. subst pc2 w2.
    set (p := pc + zlen (argo a 0 ++ callf addr F_fwd)) in *.
    replace (pc + zlen (argo a 0 ++ callf addr F_fwd ++ index_code b ++ mov_rbp 137 a)) with (p + zlen (index_code b ++ mov_rbp 137 a))
      by (unfold p; rewrite !zlen_app; lia). clearbody p. clear A Y1 Gs P0.
    rewrite (enc_st_rax a) in * by apply Fa. rename Y4 into A.
    unfold index_code in *. destruct (negb (Z.land b ASM_TPL_IMM =? 0)) eqn:Eb.
    - destruct Hb as [Fb ->]. rewrite (app_assoc [72; 139]) in *. rewrite (enc_ld_rdx (b - ASM_TPL_IMM)) in * by apply Fb.
      rewrite <- !app_assoc in *.
      eapply (ld1 RDX); [reflexivity|exact Fb|exact y2|exact A|]. clear A; intros A.
      eapply (step1 [72; 209; 234] XShrDx); [exact A|intros ?; reflexivity|go1|]. clear A; intros A.
      eapply (step1 [72; 139; 68; 208; 16] (XLdX 16)); [exact A|intros ?; reflexivity| |].
      { cbn [exec x_r x_m x_f x_w x_pc].
        match goal with |- (do v <- xh_load X w' ?e; _) = _ => replace e with (u64 (t + (16 + PN_INT (M (B + slot (b - ASM_TPL_IMM))) * 8))) end.
        2:{ unfold setr. cbn [reg_eqb]. rewrite Y3, (y5 _ ltac:(apply Fb)). unfold PN_INT.
            rewrite Z.shiftr_div_pow2 by lia. change (2 ^ 1) with 2. unfold s64, u64, two63, two64. clear. lia. }
        rewrite Ld. reflexivity. }
      clear A; intros A. rewrite <- (app_nil_r (enc_reg 137 _ _)) in A.
      eapply (st1 RAX); [reflexivity|exact Fa|exact y2|exact A|]. intros _. apply finish.
      match goal with |- G ?q _ _ (mkX ?r _ _ _ _) => replace q with r end.
      2:{ rewrite !zlen_app. lia. }
      apply G_put; auto.
    - destruct Hb as [Hb ->]. rewrite <- !app_assoc in *. rewrite (app_assoc [72; 199; 194]) in A.
      unfold ASM_TPL_IMM in Hb.
      eapply step1; [exact A|apply decs_movdi; lia|go1|]. clear A; intros A.
      eapply (step1 [72; 139; 4; 208] (XLdX 0)); [exact A|intros ?; reflexivity| |].
      { cbn [exec x_r x_m x_f x_w x_pc].
        match goal with |- (do v <- xh_load X w' ?e; _) = _ => replace e with (u64 (t + (16 + b * 8))) end.
        2:{ unfold setr. cbn [reg_eqb]. rewrite Y3. f_equal. unfold u64, two64. clear - Hb. lia. }
        rewrite Ld. reflexivity. }
      clear A; intros A. rewrite <- (app_nil_r (enc_reg 137 _ _)) in A.
      eapply (st1 RAX); [reflexivity|exact Fa|exact y2|exact A|]. intros _. apply finish.
      match goal with |- G ?q _ _ (mkX ?r _ _ _ _) => replace q with r end.
      2:{ rewrite !zlen_app. lia. }
      apply G_put; auto.
  Qed.
  (** ** Return *)
  Context (HS0 : S0 - B = 8) (HS64 : S0 < two64) (HSp0 : 0 <= Sp).
  Lemma named_blk a b pc w M w' r : 0 <= a -> a + 2 <= 15 -> inframe a -> inframe (b - 1) -> inframe b ->
    rt F_sig_find w [M (B + slot (need - 3)); M (B + slot a); M (B + slot (b - 1))] = Ok (w', r) ->
    (0 <= s32 r -> 0 <= r < 2147483648 /\ inframe (a + 2 + r)) ->
    let st := [72; 247; 216] ++ ([72; 139] ++ mov_ebp 85 b) ++ [72; 137; 84; 197; RBPB (a + 2)] in
    let bs := argo (need - 3) 0 ++ argo a 1 ++ argo (b - 1) 2 ++ callf addr F_sig_find ++ [133; 192] ++ [120; zlen st] ++ st in
    at_ pc bs -> blk pc w M (pc + zlen bs) w' (if s32 r <? 0 then M else setm M (B + slot (a + 2 + r)) (M (B + slot b))).
  Proof.
    intros Ha Ha2 Fa Fn Fb C Hr st bs A s Gs. unfold bs in *. clear bs.
    pose proof (call_only [(0, need - 3); (1, a); (2, b - 1)] F_sig_find pc w M w' r ([133; 192] ++ [120; zlen st] ++ st)) as K.
    unfold args in K. cbn [flat_map fst snd] in K. rewrite app_nil_r, <- !app_assoc in K.
    assert (P0 : posok [(0, need - 3); (1, a); (2, b - 1)]).
    { split; [repeat constructor; cbn; intuition lia|].
      repeat constructor; cbn [fst snd]; try lia; first [apply inneed; lia|apply Fa|apply Fn]. }
    specialize (K P0 eq_refl C A).
    destruct (K s Gs) as ([pc2 R2 f2 m2 w2] & Y1 & [y1 y2 y3 y4 y5] & Y3 & Y4). clear K.
    eapply xs_pre; [exact Y1|]. cbn [x_pc x_r x_f x_m x_w] in *. subst pc2 w2.
    set (p := pc + zlen (argo (need - 3) 0 ++ argo a 1 ++ argo (b - 1) 2 ++ callf addr F_sig_find)) in *.
    replace (pc + zlen (argo (need - 3) 0 ++ argo a 1 ++ argo (b - 1) 2 ++ callf addr F_sig_find ++ [133; 192] ++ [120; zlen st] ++ st))
      with (p + zlen ([133; 192] ++ [120; zlen st] ++ st)) by (unfold p; rewrite !zlen_app; lia).
    clearbody p. clear A Y1 Gs P0. rename Y4 into A.
    assert (Ls : 0 <= zlen st < 128).
    { unfold st. rewrite enc_ld_rdx by apply Fb. rewrite !zlen_app, zlen_enc by reflexivity.
      change (zlen [72; 247; 216]) with 3. change (zlen [72; 137; 84; 197; RBPB (a + 2)]) with 5. destruct (slot b <? -128); lia. }
    eapply (step1 [133; 192] XTestEax); [exact A|intros ?; reflexivity|go1|]. clear A; intros A. change (zlen [133; 192]) with 2 in *.
    eapply (jcc1 CS (zlen st)); [exact Ls|exact A|]. clear A; intros A. cbn [cond f_s]. rewrite Y3.
    destruct (s32 r <? 0) eqn:Er.
    - apply finish. replace (p + zlen ([133; 192] ++ [120; zlen st] ++ st)) with (p + 2 + 2 + zlen st)
        by (rewrite !zlen_app; change (zlen [133; 192]) with 2; change (zlen [120; zlen st]) with 2; lia).
      split; cbn; auto.
    - destruct (Hr ltac:(lia)) as [Hr1 Fr]. clear Hr.
      replace (zlen ([133; 192] ++ [120; zlen st] ++ st)) with (2 + 2 + zlen st)
        by (rewrite !zlen_app; change (zlen [133; 192]) with 2; change (zlen [120; zlen st]) with 2; lia).
      unfold st in *. clear st Ls. rewrite enc_ld_rdx in * by apply Fb.
      eapply (step1 [72; 247; 216] XNegRax); [exact A|intros ?; reflexivity|go1|]. clear A; intros A. rewrite Y3.
      eapply (ld1 RDX); [reflexivity|exact Fb| |exact A|].
      { unfold setr. cbn [reg_eqb]. exact y2. }
      clear A; intros A. rewrite <- (app_nil_r [72; 137; 84; 197; RBPB (a + 2)]) in A.
      eapply (step1 [72; 137; 84; 197; RBPB (a + 2)] (XStX (i8 (RBPB (a + 2))))); [exact A|intros ?; reflexivity| |].
      { cbn [exec x_r x_m x_f x_w x_pc].
        match goal with |- (if u64 ?e mod 8 =? 0 then _ else _) = _ => replace (u64 e) with (B + slot (a + 2 + r)) end.
        2:{ unfold setr. cbn [reg_eqb]. rewrite y2.
            replace (i8 (RBPB (a + 2))) with (slot (a + 2)) by (unfold i8, RBPB, slot; clear - Ha Ha2; destruct (_ <? 128) eqn:E; lia).
            destruct Fr as [Fr0 Fr1]. clear - Ha Ha2 Hr1 Fr0 Fr1 HS0 HS64 HSp0. unfold slot, u64, two64 in *. lia. }
        rewrite (slot_al B HB). cbn [Z.eqb]. reflexivity. }
      clear A; intros A. apply finish. rewrite !zlen_app.
      match goal with |- G ?q _ _ (mkX ?r0 _ _ _ _) => replace q with r0 by lia end.
      match goal with |- context [setm m2 _ (?e)] => replace e with (M (B + slot b)) end.
      2:{ unfold setr. cbn [reg_eqb]. rewrite y5 by apply Fb. reflexivity. }
      apply G_put; auto.
  Qed.
  Definition returned (w : W) (M : Z -> Z) (v : Z) (s : xst W) : Prop :=
    xstep X code S0 s = Ok (XDone s) /\ x_r s RAX = v /\ x_w s = w /\ x_r s RSP = S0 /\ x_r s RBP = M B /\
    forall ad, Sp <= ad -> x_m s ad = M ad.
  Lemma return_blk pc w M : at_ pc (mov_rbp 139 0 ++ [201; 195]) ->
    forall s, G pc w M s -> exists s', xs s s' /\ returned w M (M (B + slot 0)) s'.
  Proof.
    intros A [pc0 R f m w0] [g1 g2 g3 g4 g5]. cbn [x_pc x_r x_f x_m x_w] in *. subst pc0 w0.
    assert (F0 : inframe 0) by (apply inneed; lia).
    rewrite (enc_ld_rax 0) in * by lia.
    change [201; 195] with ([201] ++ [195]) in A.
    eapply (ld1 RAX); [reflexivity|exact F0|exact g2|exact A|]. clear A; intros A.
    eapply (step1 [201] XLeave); [exact A|intros ?; reflexivity| |].
    { cbn [exec x_r x_m x_f x_w x_pc]. unfold setr at 1. cbn [reg_eqb]. rewrite g2.
      replace (B mod 8 =? 0) with true by lia. reflexivity. }
    clear A; intros A. apply finish. unfold returned. cbn [x_pc x_r x_f x_m x_w].
    assert (E : u64 (B + 8) = S0) by (unfold u64; replace (B + 8) with S0 by lia; apply Z.mod_small; lia).
    split; [|split; [|split; [|split; [|split]]]].
    - unfold xstep. cbn [x_pc]. pose proof (at_nonneg _ _ _ A) as Np.
      match goal with |- context [?c <? 0] => replace (c <? 0) with false by lia end.
      destruct A as (pre & post & -> & <-). rewrite at_pc. cbn [app dec]. cbn -[setr].
      unfold setr. cbn [reg_eqb]. rewrite g2, E. rewrite Z.eqb_refl. reflexivity.
    - unfold setr. cbn [reg_eqb]. apply g5. apply F0.
    - reflexivity.
    - unfold setr. cbn [reg_eqb]. rewrite g2. exact E.
    - unfold setr. cbn [reg_eqb]. rewrite g2. apply g5. lia.
    - exact g5.
  Qed.

  Definition after (bs : list Z) (d pc : Z) (w' : W) (M' : Z -> Z) (t : jt) (s : xst W) : Prop :=
    match t with
    | JNext => G (pc + zlen bs) w' M' s
    | JJump => G (pc + zlen bs + d) w' M' s
    | JRet v => returned w' M' v s
    end.
  Ltac bnd H := repeat match type of H with
    | bind (fget _ _ _ _) _ = Ok _ => let E := fresh "E" in let v := fresh "v" in
        destruct (fget _ _ _ _) as [v| |] eqn:E; cbn [bind] in H; [apply fget_ok in E; destruct E as (? & ? & E)|discriminate H|discriminate H]
    | bind (fset _ _ _ _ _) _ = Ok _ => let E := fresh "E" in let v := fresh "m" in
        destruct (fset _ _ _ _ _) as [v| |] eqn:E; cbn [bind] in H; [apply fset_ok in E; destruct E as (? & ? & E)|discriminate H|discriminate H]
    | bind (rt _ _ _) _ = Ok _ => let E := fresh "E" in let v := fresh "r" in
        destruct (rt _ _ _) as [[? v]| |] eqn:E; cbn [bind fst snd] in H; [|discriminate H|discriminate H]
    | Ok _ = Ok _ => injection H as <- <- <-
    end.
  Ltac pk := split; [repeat constructor; cbn; intuition lia|];
      repeat constructor; cbn [fst snd]; try lia; first [apply inneed; lia|assumption].
  (** an operation that is one runtime call *)
  Lemma op_call l f a pc w M w' v M' bs : posok l -> map fst l = map Z.of_nat (apos f) -> inframe a ->
    rt f w (map (fun p => M (B + slot (snd p))) l) = Ok (w', v) -> M' = setm M (B + slot a) v ->
    bs = args l ++ callf addr f ++ mov_rbp 137 a -> at_ pc bs ->
    forall s, G pc w M s -> exists s', xs s s' /\ G (pc + zlen bs) w' M' s'.
  Proof. intros P E F C -> -> A. exact (call_blk l f a pc w M w' v P E F C A). Qed.
  Ltac acall f l := eapply (op_call l f);
    [pk|reflexivity|eassumption|cbn [map snd]; subst; eassumption|first [eassumption|subst; reflexivity]
    |unfold args; cbn [flat_map fst snd]; rewrite ?app_nil_r, <- ?app_assoc; reflexivity|eassumption|eassumption].

  (** the creation of a lick without inner value or attributes: nil is put in register a *)
  Lemma lick_blk l1 l2 a pc w M w' v : posok l1 -> posok l2 -> map fst l1 ++ map fst l2 = [0; 1; 2; 3] -> inframe a ->
    Forall (fun p => snd p = a) l2 ->
    rt F_lick w (map (fun p => M (B + slot (snd p))) l1 ++ map (fun _ => PN_NIL) l2) = Ok (w', v) ->
    at_ pc (args l1 ++ movq a PN_NIL ++ args l2 ++ callf addr F_lick ++ mov_rbp 137 a) ->
    blk pc w M (pc + zlen (args l1 ++ movq a PN_NIL ++ args l2 ++ callf addr F_lick ++ mov_rbp 137 a)) w' (setm M (B + slot a) v).
  Proof.
    intros P1 P2 E Fa Sl C A s Gs. rewrite (posok_args l1 P1), (posok_args l2 P2) in *.
    set (L1 := map (fun p : Z * Z => (argreg (fst p), snd p)) l1) in *. set (L2 := map (fun p : Z * Z => (argreg (fst p), snd p)) l2) in *.
    assert (PK : forall l, posok l -> let L := map (fun p : Z * Z => (argreg (fst p), snd p)) l in
      Forall (fun p => gpr (fst p) = true /\ inframe (snd p)) L /\ NoDup (map fst L)).
    { intros l [N F] L. split.
      - apply Forall_map. eapply Forall_impl; [|exact F]. intros p [_ Hp]. split; [apply argreg_gpr|exact Hp].
      - unfold L. rewrite map_map. cbn [fst]. clear -N F.
        induction l as [|[n r] l IH]; [constructor|]. inversion N; subst. inversion F as [|? ? [F1 _] F2]; subst.
        cbn [map fst] in *. constructor; [|auto].
        intros I. apply in_map_iff in I as ([n' r'] & E & I). cbn [fst] in E.
        rewrite Forall_forall in F2. apply argreg_inj in E; [|apply (F2 _ I)|exact F1]. subst n'.
        apply H1. apply in_map_iff. exists (n, r'). auto. }
    destruct (PK l1 P1) as [A1 A2]. destruct (PK l2 P2) as [A3 A4]. fold L1 in A1, A2. fold L2 in A3, A4.
    destruct (loads_ok X code S0 B Sp HB _ pc w M s _ A1 A2 Gs A) as (R & X1 & X2 & X3 & X4 & X5 & X6).
    eapply xs_pre; [exact X1|]. clear X1.
    eapply movq1; [exact Fa|exact X3|exact X2|]. intros Y2. change (u64 PN_NIL) with 0 in *.
    set (M1 := setm M (B + slot a) 0). set (m1 := setm (x_m s) (B + slot a) 0). set (R1 := setr R RAX 0).
    set (pc1 := pc + zlen (loads L1) + zlen (movq a PN_NIL)) in *.
    assert (G1 : G pc1 w M1 (mkX pc1 R1 (x_f s) m1 w)).
    { split; cbn [x_pc x_r x_m x_w]; auto; try (unfold R1, setr; cbn [reg_eqb]; assumption).
      intros ad L. unfold m1, M1, setm. destruct (ad =? B + slot a); [reflexivity|]. exact (G_mem _ _ _ _ _ _ _ Gs L). }
    destruct (loads_ok X code S0 B Sp HB _ pc1 w M1 _ _ A3 A4 G1 Y2) as (R2 & Z1 & Z2 & Z3 & Z4 & Z5 & Z6).
    cbn [x_f x_m x_r] in *. eapply xs_pre; [exact Z1|]. clear Z1 Y2.
    set (pc2 := pc1 + zlen (loads L2)) in *.
    assert (V : xh_call X w (addr F_lick) [R2 RDI; R2 RSI; R2 RDX; R2 RCX; R2 R8; R2 R9] = Ok (w', v)).
    { rewrite HX by reflexivity. rewrite <- C. f_equal.
      assert (K : forall ns q1 q2, map fst q1 ++ map fst q2 = map Z.of_nat ns -> Forall (fun n => (n < 6)%nat) ns -> incl q1 l1 -> incl q2 l2 ->
        map (fun n => nth n [R2 RDI; R2 RSI; R2 RDX; R2 RCX; R2 R8; R2 R9] 0) ns = map (fun p => M (B + slot (snd p))) q1 ++ map (fun _ => PN_NIL) q2).
      { assert (K2 : forall n r, (n < 6)%nat -> In (Z.of_nat n, r) l2 -> nth n [R2 RDI; R2 RSI; R2 RDX; R2 RCX; R2 R8; R2 R9] 0 = PN_NIL).
        { intros n r Hn I. rewrite args6 by exact Hn. rewrite (Z5 _ r) by (apply in_map_iff; exists (Z.of_nat n, r); auto).
          rewrite Forall_forall in Sl. specialize (Sl _ I). cbn [snd] in Sl. subst r. unfold M1, setm. rewrite Z.eqb_refl. reflexivity. }
        assert (K1 : forall n r, (n < 6)%nat -> In (Z.of_nat n, r) l1 -> ~ In (Z.of_nat n) (map fst l2) -> nth n [R2 RDI; R2 RSI; R2 RDX; R2 RCX; R2 R8; R2 R9] 0 = M (B + slot r)).
        { intros n r Hn I NI. rewrite args6 by exact Hn. rewrite Z6.
          - unfold R1, setr. destruct (reg_eqb (argreg (Z.of_nat n)) RAX) eqn:Q.
            + exfalso. apply (argreg_rax (Z.of_nat n)). destruct (argreg (Z.of_nat n)); try discriminate Q; reflexivity.
            + apply X5. apply in_map_iff. exists (Z.of_nat n, r). auto.
          - unfold L2. rewrite map_map. intros I2. apply in_map_iff in I2 as ([n2 r2] & E2 & I2). cbn [fst] in E2.
            destruct P2 as [_ P2]. rewrite Forall_forall in P2. apply argreg_inj in E2; [|apply (P2 _ I2)|lia]. subst n2.
            apply NI. apply in_map_iff. exists (Z.of_nat n, r2). auto. }
        assert (ND : NoDup (map fst l1 ++ map fst l2)) by (rewrite E; repeat constructor; cbn; intuition lia).
        assert (DJ : forall z, In z (map fst l1) -> ~ In z (map fst l2)).
        { clear - ND. induction (map fst l1) as [|x l IH]; [intros z []|]. cbn [app] in ND. inversion ND as [|x' l' N D]; subst.
          intros z [->|I]; [intros I2; apply N; apply in_or_app; right; exact I2|apply IH; assumption]. }
        induction ns as [|n ns IH]; intros q1 q2 E' F' I1 I2.
        - destruct q1; [|discriminate E']. destruct q2; [|discriminate E']. reflexivity.
        - inversion F' as [|? ? Fn Fns]; subst. destruct q1 as [|[z r] q1].
          + destruct q2 as [|[z r] q2]; [discriminate E'|]. cbn [map app fst] in *. injection E' as E1 E2. subst z.
            f_equal; [eapply K2; [exact Fn|apply I2; left; reflexivity]|]. apply (IH [] q2); [exact E2|exact Fns|exact I1|].
            intros p Ip. apply I2. right. exact Ip.
          + cbn [map app fst snd] in *. injection E' as E1 E2. subst z.
            f_equal; [|apply IH; [exact E2|exact Fns| |exact I2]; intros p Ip; apply I1; right; exact Ip].
            eapply K1; [exact Fn|apply I1; left; reflexivity|]. apply DJ. apply in_map_iff. exists (Z.of_nat n, r). split; [reflexivity|apply I1; left; reflexivity]. }
      apply (K [0; 1; 2; 3]%nat l1 l2); [exact E|repeat constructor; lia|apply incl_refl|apply incl_refl]. }
    unfold callf in Z2. rewrite <- !app_assoc in Z2. rewrite app_assoc in Z2.
    eapply (step1 ([72; 184] ++ ASMN (addr F_lick)) (XMovI (addr F_lick))); [exact Z2|apply decs_movi; apply Haddr|go1|].
    clear Z2; intros Z2. cbn [x_pc] in Z2.
    eapply (step1 [255; 208] XCall); [exact Z2|intros ?; reflexivity| |].
    { cbn [exec x_r x_m x_f x_w x_pc]. unfold setr at 1 2 3 4 5 6 7 8. cbn [reg_eqb]. rewrite Z4, HA16, V. cbn [Z.eqb negb bind fst snd]. reflexivity. }
    clear Z2; intros Z2. rewrite <- (app_nil_r (mov_rbp 137 a)) in Z2. rewrite enc_st_rax in * by apply Fa.
    eapply (st1 RAX); [reflexivity|exact Fa| |exact Z2|].
    { unfold setr. cbn [reg_eqb]. exact Z3. }
    intros _. apply finish.
    assert (EP : pc + zlen (loads L1 ++ movq a PN_NIL ++ loads L2 ++ callf addr F_lick ++ enc_reg 137 RAX (slot a)) =
      pc2 + zlen ([72; 184] ++ ASMN (addr F_lick)) + zlen [255; 208] + zlen (enc_reg 137 RAX (slot a))).
    { unfold pc2, pc1, callf. rewrite !zlen_app. lia. }
    rewrite EP. split; cbn [x_pc x_r x_m x_w]; try reflexivity.
    - unfold setr. cbn [reg_eqb]. exact Z3.
    - unfold setr. cbn [reg_eqb]. exact Z4.
    - intros ad L. unfold setm. destruct (ad =? B + slot a) eqn:Ea.
      + unfold setr. cbn [reg_eqb]. reflexivity.
      + unfold setr. cbn [reg_eqb]. rewrite ?Z4. replace (ad <? Sp) with false by lia. unfold m1, setm. rewrite Ea. exact (G_mem _ _ _ _ _ _ _ Gs L).
  Qed.
(*CALLBLK*)
  (** ** Calling a closure *)
  Definition cpos (a : Z) : list (Z * Z) := [(0, need - 3); (1, a); (2, a + 1); (3, a + 2); (4, a + 3); (5, a + 4)].
  Lemma call_args_eq a n : (n <= 4)%nat ->
    argo (need - 3) 0 ++ argo a 1 ++ call_args a 2 n = args (firstn (2 + n) (cpos a)).
  Proof.
    intros L. unfold cpos, args. do 5 (destruct n as [|n]; [cbn [firstn plus flat_map fst snd call_args]; rewrite ?app_nil_r;
      repeat match goal with |- context [argo (a + ?i - 1) _] => replace (a + i - 1) with (a + (i - 1)) by lia end; cbn; reflexivity|]).
    lia.
  Qed.
  Lemma fargs_ok M r n l : fargs need B M r n = Ok l -> length l = n /\
    forall k, (k < n)%nat -> inframe (r + Z.of_nat k) /\ nth k l 0 = M (B + slot (r + Z.of_nat k)).
  Proof.
    revert r l. induction n as [|n IH]; intros r l; cbn [fargs].
    - intros [= <-]. split; [reflexivity|]. intros k Hk. lia.
    - destruct (fget need B M r) as [v| |] eqn:E; cbn [bind]; try discriminate.
      destruct (fargs need B M (r + 1) n) as [l'| |] eqn:E2; cbn [bind]; try discriminate.
      intros [= <-]. apply fget_ok in E as (E & _ & Ev). destruct (IH _ _ E2) as [L K]. split; [cbn; lia|].
      intros [|k] Hk.
      + rewrite Z.add_0_r. split; [exact E|]. cbn. auto.
      + destruct (K k ltac:(lia)) as [K1 K2]. replace (r + Z.of_nat (S k)) with (r + 1 + Z.of_nat k) by lia. split; [exact K1|exact K2].
  Qed.
  Lemma decs_testi d : - 2147483648 <= d < 2147483648 -> decs ([247; 192] ++ ASMI d) (XTestI d).
  Proof.
    intros H rest. unfold ASMI. rewrite <- app_assoc. rewrite zlen_app, zlen_le.
    change (dec ([247; 192] ++ le_bytes 4 d ++ rest)) with
      (match take_n 4 (le_bytes 4 d ++ rest) with Some (d, _) => Some (XTestI (s32 (le_val d)), 6) | None => None end).
    rewrite take4, le4_s32 by exact H. reflexivity.
  Qed.
  Lemma decs_cmpm d : - 2147483648 <= d < 2147483648 -> decs ([129; 56] ++ ASMI d) (XCmpM d).
  Proof.
    intros H rest. unfold ASMI. rewrite <- app_assoc. rewrite zlen_app, zlen_le.
    change (dec ([129; 56] ++ le_bytes 4 d ++ rest)) with
      (match take_n 4 (le_bytes 4 d ++ rest) with Some (d, _) => Some (XCmpM (s32 (le_val d)), 6) | None => None end).
    rewrite take4, le4_s32 by exact H. reflexivity.
  Qed.
  Lemma jmp_args6 (R : reg -> Z) M a n l p x : (n <= 4)%nat -> length l = n ->
    (forall k, (k < n)%nat -> nth k l 0 = M (B + slot (a + 1 + Z.of_nat k))) ->
    p = M (B + slot (need - 3)) -> x = M (B + slot a) ->
    (forall i r, In (i, r) (firstn (2 + n) (cpos a)) -> R (argreg i) = M (B + slot r)) ->
    firstn (2 + length l) [R RDI; R RSI; R RDX; R RCX; R R8; R R9] = p :: x :: l.
  Proof.
    intros Hn L K -> -> HR. rewrite L.
    assert (E : forall i r, In (i, r) (firstn (2 + n) (cpos a)) -> M (B + slot r) = R (argreg i)) by (intros; symmetry; auto).
    rewrite (E 0 (need - 3)) by (left; reflexivity). rewrite (E 1 a) by (right; left; reflexivity).
    cbn [firstn plus]. f_equal. f_equal.
    assert (K' : forall k, (k < n)%nat -> nth k l 0 = R (argreg (Z.of_nat k + 2))).
    { intros k Hk. rewrite (K k Hk). apply E. unfold cpos.
      do 4 (destruct k as [|k]; [destruct n; [lia|]; try (destruct n; [lia|]); try (destruct n; [lia|]); try (destruct n; [lia|]); cbn [firstn plus]; solve [repeat (first [left; f_equal; lia|right])]|]). lia. }
    clear -Hn L K'. 
    do 5 (destruct n as [|n]; [destruct l as [|? l]; try discriminate L; try reflexivity; cbn [length] in L;
      repeat (destruct l as [|? l]; try discriminate L; cbn [length] in L);
      try (pose proof (K' 0%nat ltac:(lia)) as Q0; cbn in Q0; rewrite Q0);
      try (pose proof (K' 1%nat ltac:(lia)) as Q1; cbn in Q1; rewrite Q1);
      try (pose proof (K' 2%nat ltac:(lia)) as Q2; cbn in Q2; rewrite Q2);
      try (pose proof (K' 3%nat ltac:(lia)) as Q3; cbn in Q3; rewrite Q3); reflexivity|]). lia.
  Qed.
  Lemma land_rm v : Z.land (u32 v) (u32 PN_REF_MASK) = Z.land (u32 v) (two32 - 8).
  Proof. reflexivity. Qed.
  Lemma call_blk2 a b pc w M w' v l : inframe a -> a <= 15 -> b - a <= 4 ->
    fargs need B M (a + 1) (Z.to_nat (b - a)) = Ok l ->
    nc w (M (B + slot (need - 3))) (M (B + slot a)) l = Ok (w', v) ->
    at_ pc (x86_call addr need a b) ->
    blk pc w M (pc + zlen (x86_call addr need a b)) w' (setm M (B + slot a) v).
  Proof.
    intros Fa A15 Hb Hl Hc A s Gs. apply Hnc in Hc as (N1 & N2 & (t & N3 & N4) & m1 & N5 & N6).
    apply fargs_ok in Hl as [L K]. unfold x86_call in *. set (n := Z.to_nat (b - a)) in *. assert (Hn : (n <= 4)%nat) by lia. clearbody n.
    assert (Est : [72; 137; 69; RBPB a] = enc_reg 137 RAX (slot a)).
    { rewrite <- enc_st_rax by apply Fa. unfold mov_rbp, mov_ebp. replace (15 <? a) with false by lia. reflexivity. }
    rewrite Est in *. clear Est.
    cbv zeta in A |- *. set (class := argo (need - 3) 0 ++ argo a 2 ++ callf addr F_object_new ++ _) in *.
    set (get := mov_rbp 137 (a + 1) ++ argo (need - 3) 0 ++ _) in *.
    assert (Fn3 : 0 <= need - 3) by lia. assert (Fa0 : 0 <= a) by apply Fa.
    assert (Ln : forall o, 0 <= zlen (mov_rbp o a) <= 7 /\ 0 <= zlen (mov_rbp o (a + 1)) <= 7).
    { intros o. unfold mov_rbp. rewrite !zlen_app, !mov_ebp_enc by lia. rewrite !zlen_mem. change (zlen [72; o]) with 2.
      destruct (slot a <? -128), (slot (a + 1) <? -128); lia. }
    assert (Lc : 0 <= zlen class <= 51).
    { unfold class. rewrite !zlen_app, zlen_callf.
      pose proof (zlen_argo (need - 3) 0 Fn3). pose proof (zlen_argo a 2 Fa0). pose proof (Ln 137). pose proof (Ln 139).
      change (zlen [72; 139; 64; 56]) with 4. lia. }
    assert (Lg : 0 <= zlen get <= 33).
    { unfold get. rewrite !zlen_app, zlen_callf.
      pose proof (zlen_argo (need - 3) 0 Fn3). pose proof (zlen_argo a 1 Fa0). pose proof (Ln 137). lia. }
    rewrite (zlen_app get) in *. change (zlen [235; _]) with 2 in *.
    clearbody class get. rewrite (enc_ld_rax a) in * by lia.
    assert (Lld : 0 <= zlen (enc_reg 139 RAX (slot a)) <= 7).
    { rewrite zlen_enc by reflexivity. destruct (slot a <? -128); lia. }
    set (ld := enc_reg 139 RAX (slot a)) in *. 
    set (ty := [247; 192] ++ ASMI PN_REF_MASK) in *.
    set (cv := [129; 56] ++ ASMI PN_TVTABLE) in *. set (ck := [129; 56] ++ ASMI PN_TCLOSURE) in *.
    change ([129; 56] ++ ASMI PN_TVTABLE ++ ?z) with (cv ++ z) in *.
    change ([129; 56] ++ ASMI PN_TCLOSURE ++ ?z) with (ck ++ z) in *.
    assert (L1 : zlen ty = 6) by reflexivity. assert (L2 : zlen cv = 6) by reflexivity. assert (L3 : zlen ck = 6) by reflexivity.
    rewrite !(zlen_app cv), !(zlen_app ck), ?L1, ?L2, ?L3 in *.
    change (zlen [72; 131; 224; 248]) with 4 in *. change (zlen [117; _]) with 2 in *. change (zlen [116; _]) with 2 in *.
    match type of A with context [[246; 192; 1] ++ [117; ?d] ++ ty ++ [116; ?e] ++ _] => set (d1 := d) in *; set (d2 := e) in * end.
    assert (D1 : 0 <= d1 < 128) by (unfold d1; lia). assert (D2 : 0 <= d2 < 128) by (unfold d2; lia). clearbody d1 d2.
    rewrite (app_assoc (argo a 1)), (app_assoc (argo (need - 3) 0)) in *.
    rewrite (call_args_eq a n Hn) in *.
    set (la := args (firstn (2 + n) (cpos a))) in *.
    rewrite <- !app_assoc in A. rewrite !zlen_app, !Z.add_assoc. rewrite ?L1, ?L2, ?L3.
    change (zlen [246; 192; 1]) with 3. change (zlen [116; _]) with 2. change (zlen [117; _]) with 2. change (zlen [72; 131; 224; 248]) with 4.
    change (zlen [235; _]) with 2. change (zlen [255; 208]) with 2. change (zlen [72; 139; 64; 8]) with 4.
    destruct s as [pc0 R fl m w0]. destruct Gs as [g1 g2 g3 g4 g5]. cbn [x_pc x_r x_f x_m x_w] in *. subst pc0 w0.
    assert (Ac : at_ (pc + zlen ld + 3 + 2 + 6 + 2 + 4 + 6 + 2 + zlen class) (ck ++ [116; zlen ld + (zlen get + 2)] ++ ld ++ get ++ [235; zlen ld] ++ ld ++ [72; 139; 64; 8] ++ la ++ [255; 208] ++ enc_reg 137 RAX (slot a))).
    { pose proof A as A'. do 9 apply at_skip in A'. exact A'. }
    assert (Ad : at_ (pc + zlen ld + 3 + 2 + 6 + 2 + 4 + 6 + 2 + zlen class + 6 + 2 + zlen ld + zlen get + 2) (ld ++ [72; 139; 64; 8] ++ la ++ [255; 208] ++ enc_reg 137 RAX (slot a))).
    { pose proof Ac as A'. do 5 apply at_skip in A'. exact A'. }
    eapply (ld1 RAX); [reflexivity|exact Fa|exact g2|exact A|]. fold ld. clear A; intros A. rewrite g5 by apply Fa.
    set (x := M (B + slot a)) in *.
    eapply (step1 [246; 192; 1] (XTest1 RAX)); [exact A|intros ?; reflexivity|go1|]. clear A; intros A.
    change (zlen [246; 192; 1]) with 3 in *. change (setr R RAX x RAX) with x. rewrite N1. cbn [negb].
    eapply (jcc1 CNE); [exact D1|exact A|]. clear A; intros A. cbn [cond f_z negb].
    eapply (step1 ty (XTestI PN_REF_MASK)); [exact A|apply decs_testi; unfold PN_REF_MASK; lia|go1|]. clear A; intros A.
    change (setr R RAX x RAX) with x. rewrite land_rm. rewrite L1 in *.
    eapply (jcc1 CE); [exact D2|exact A|]. clear A; intros A. cbn [cond f_z].
    replace (Z.land (u32 x) (two32 - 8) =? 0) with false by lia.
    eapply (step1 [72; 131; 224; 248] (XAndI (-8))); [exact A|intros ?; reflexivity|go1|]. clear A; intros A.
    change (zlen [72; 131; 224; 248]) with 4 in *. change (setr R RAX x RAX) with x. change (u64 (-8)) with (two64 - 8).
    eapply (step1 cv (XCmpM PN_TVTABLE)); [exact A|apply decs_cmpm; unfold PN_TVTABLE; lia| |].
    { cbn [exec x_r x_m x_f x_w x_pc]. change (setr (setr R RAX x) RAX (Z.land x (two64 - 8)) RAX) with (Z.land x (two64 - 8)). rewrite N3. cbn [bind]. reflexivity. }
    clear A; intros A. rewrite L2 in *.
    assert (E1 : (u32 (t - PN_TVTABLE) =? 0) = false).
    { unfold u32, two32, PN_TVTABLE, PN_TCLOSURE in *. lia. }
    assert (E2 : (u32 (t - PN_TCLOSURE) =? 0) = true).
    { unfold u32, two32, PN_TCLOSURE in *. lia. }
    eapply (jcc1 CNE); [|exact A|]; [lia|]. clear A; intros A. cbn [cond f_z]. rewrite E1. cbn [negb].
    eapply (step1 ck (XCmpM PN_TCLOSURE)); [exact Ac|apply decs_cmpm; unfold PN_TCLOSURE; lia| |].
    { cbn [exec x_r x_m x_f x_w x_pc]. change (setr (setr R RAX x) RAX (Z.land x (two64 - 8)) RAX) with (Z.land x (two64 - 8)). rewrite N3. cbn [bind]. reflexivity. }
    clear A Ac; intros A. rewrite L3 in *.
    eapply (jcc1 CE); [|exact A|]; [lia|]. clear A; intros A. cbn [cond f_z]. rewrite E2. 
    match goal with |- exists s', xs (mkX ?q _ _ _ _) _ /\ _ => match type of Ad with JitProofs.at_ _ ?q2 _ => replace q with q2 by lia end end.
    eapply (ld1 RAX); [reflexivity|exact Fa|exact g2|exact Ad|]. fold ld. clear A Ad; intros A. rewrite g5 by apply Fa. fold x.
    eapply (step1 [72; 139; 64; 8] (XLdA 8)); [exact A|intros ?; reflexivity| |].
    { cbn [exec x_r x_m x_f x_w x_pc]. match goal with |- context [setr ?q RAX x RAX] => change (setr q RAX x RAX) with x end. rewrite N5. cbn [bind]. reflexivity. }
    clear A; intros A. change (zlen [72; 139; 64; 8]) with 4 in *.
    match goal with |- exists s', xs (mkX ?q ?R1 ?f1 m w) _ /\ _ => set (pc1 := q) in *; set (s1 := mkX q R1 f1 m w) end.
    assert (G1 : G pc1 w M s1) by (split; cbn [x_pc x_r x_f x_m x_w s1]; auto).
    assert (Pk : posok (firstn (2 + n) (cpos a))).
    { unfold cpos.
      assert (Fk : forall k, (k < n)%nat -> inframe (a + 1 + Z.of_nat k)) by (intros k Hk; apply K; exact Hk).
      split.
      - do 5 (destruct n as [|n]; [cbn [firstn plus map fst]; repeat constructor; cbn; intuition lia|]). lia.
      - assert (F3 : inframe (need - 3)) by (apply inneed; lia).
        assert (F4 : (0 < n)%nat -> inframe (a + 1)) by (intros Q; replace (a + 1) with (a + 1 + Z.of_nat 0) by lia; auto).
        assert (F5 : (1 < n)%nat -> inframe (a + 2)) by (intros Q; replace (a + 2) with (a + 1 + Z.of_nat 1) by lia; auto).
        assert (F6 : (2 < n)%nat -> inframe (a + 3)) by (intros Q; replace (a + 3) with (a + 1 + Z.of_nat 2) by lia; auto).
        assert (F7 : (3 < n)%nat -> inframe (a + 4)) by (intros Q; replace (a + 4) with (a + 1 + Z.of_nat 3) by lia; auto).
        do 5 (destruct n as [|n]; [cbn [firstn plus]; repeat constructor; cbn [fst snd]; try lia; first [apply F3|apply Fa|apply F4; lia|apply F5; lia|apply F6; lia|apply F7; lia]|]). lia. }
    assert (Ela : la = loads (map (fun p => (argreg (fst p), snd p)) (firstn (2 + n) (cpos a)))) by (apply posok_args; exact Pk).
    assert (Nd : NoDup (map fst (map (fun p => (argreg (fst p), snd p)) (firstn (2 + n) (cpos a))))).
    { rewrite map_map. unfold cpos. do 5 (destruct n as [|n]; [cbn [firstn plus map fst]; repeat constructor; cbn; intuition discriminate|]). lia. }
    rewrite Ela in A.
    assert (Fl : Forall (fun p => gpr (fst p) = true /\ inframe (snd p)) (map (fun p => (argreg (fst p), snd p)) (firstn (2 + n) (cpos a)))).
    { apply Forall_map. eapply Forall_impl; [|exact (proj2 Pk)]. intros p [_ Hp]. split; [apply argreg_gpr|exact Hp]. }
    destruct (loads_ok X code S0 B Sp HB _ pc1 w M s1 _ Fl Nd G1 A)
      as (R2 & X1 & X2 & X3 & X4 & X5 & X6).
    rewrite <- Ela in *.
    eapply xs_pre; [exact X1|].
    assert (ER : R2 RAX = m1).
    { rewrite X6; [reflexivity|]. rewrite map_map. intros I. apply in_map_iff in I as (p & E3 & _). exact (argreg_rax _ E3). }
    assert (Cl : xh_call X w m1 [R2 RDI; R2 RSI; R2 RDX; R2 RCX; R2 R8; R2 R9] = Ok (w', v)).
    { apply N6; [reflexivity|]. apply (jmp_args6 R2 M a n l); auto.
      - intros k Hk. apply K. exact Hk.
      - intros i r I. apply X5. apply in_map_iff. exists (i, r). split; [reflexivity|exact I]. }
    eapply (step1 [255; 208] XCall); [exact X2|intros ?; reflexivity| |].
    { cbn [exec x_r x_m x_f x_w x_pc]. rewrite X4, HA16, ER, Cl. cbn [Z.eqb negb]. cbn [bind fst snd]. reflexivity. }
    clear A X2; intros A. change (zlen [255; 208]) with 2 in *. rewrite <- (app_nil_r (enc_reg 137 _ _)) in A.
    eapply (st1 RAX); [reflexivity|exact Fa|exact X3|exact A|]. intros _. apply finish.
    unfold pc1. 
    apply G_put; auto.
    intros ad Hd. rewrite ?X4. replace (ad <? Sp) with false by lia. apply g5. exact Hd.
  Qed.
(*ENDCB*)
  Lemma some_inj {T} (x y : T) : Some x = Some y -> y = x.
  Proof. congruence. Qed.
  Ltac ncmp o J A Gs :=
    match type of J with (if ?c then _ else _) = _ => let Eo := fresh in destruct c eqn:Eo; [|discriminate J];
      apply andb_prop in Eo; destruct Eo end;
    match type of J with (if ?c then _ else _) = _ => let Ec := fresh "Ec" in destruct c eqn:Ec end;
    [|match type of J with (if ?c then _ else _) = _ => let Ew := fresh "Ew" in destruct c eqn:Ew; [discriminate J|] end];
    bnd J; cbn [after]; subst;
    match type of A with JitProofs.at_ _ ?pc (x86_numcmp _ _ ?a ?b) =>
      match type of Gs with JitProofs.G _ _ _ ?w ?M ?s =>
        let K := fresh "K" in
        pose proof (numcmp_blk o ltac:(cbn; tauto) a b pc w M ltac:(assumption) ltac:(assumption) ltac:(assumption) ltac:(assumption)) as K;
        specialize (K A);
        match goal with Ec : jcmp _ _ _ = _ |- _ => rewrite Ec in K end;
        exact (K ltac:(intros; first [discriminate|lia]) s Gs) end end.
  Theorem jit_op_sem i d bs pc w M w' M' t : -2147483648 <= d < 2147483648 ->
    jit_op addr regs need i d = Some bs -> at_ pc bs -> JS i w M = Ok (w', M', t) ->
    forall s, G pc w M s -> exists s', xs s s' /\ after bs d pc w' M' t s'.
  Proof.
    intros D E A J s Gs. destruct i as [o a b]. destruct o; cbn [jit_op ic ia ib] in E; try discriminate E;
      try (apply some_inj in E; subst bs; cbn [jsem ic ia ib] in J; bnd J; cbn [after]).
    - (* NONE *) apply finish. change (zlen (@nil Z)) with 0. rewrite Z.add_0_r. exact Gs.
    - (* MOVE *) subst. rewrite enc_ld_rax, enc_st_rax in * by lia. eapply move_blk; eauto.
    - (* LOADK *) destruct ((0 <=? b) && (b <? 65536)) eqn:Eb; [|discriminate J]. bnd J.
      destruct (xh_load X w0 _) as [v1| |] eqn:El; cbn [bind] in J; try discriminate J. bnd J. cbn [after]. subst.
      eapply loadk_blk; eauto. lia.
    - (* LOADPN *) subst. eapply movq_blk; eauto.
    - (* SELF *) subst. rewrite enc_ld_rax, enc_st_rax in * by lia. eapply move_blk; eauto.
    - acall F_tuple_empty [(0, need - 3)].
    - (* GETTUPLE *) destruct (negb (Z.land b ASM_TPL_IMM =? 0)) eqn:Eb.
      + bnd J. destruct (xh_load X w0 _) as [v1| |] eqn:El; cbn [bind] in J; try discriminate J. bnd J. cbn [after]. subst.
        pose proof (gettuple_blk a b pc w M w0 r (PN_INT (M (B + slot (b - ASM_TPL_IMM)))) v1 ltac:(assumption)) as K. cbv zeta in K. unfold index_code in K. rewrite Eb in K.
        eapply K; [split; [assumption|reflexivity]|eassumption|eassumption|exact A|exact Gs].
      + destruct ((0 <=? b) && (b <? ASM_TPL_IMM)) eqn:El0; [|discriminate J].
        destruct (xh_load X w0 _) as [v1| |] eqn:El; cbn [bind] in J; try discriminate J. bnd J. cbn [after]. subst.
        pose proof (gettuple_blk a b pc w M w0 r b v1 ltac:(assumption)) as K. cbv zeta in K. unfold index_code in K. rewrite Eb in K.
        eapply K; [split; [lia|reflexivity]|eassumption|eassumption|exact A|exact Gs].
    - acall F_tuple_push [(0, need - 3); (1, a); (2, b)].
    - (* GETLOCAL *) subst. rewrite enc_ld_rax, enc_st_rax in * by lia. eapply move_blk; eauto.
    - (* SETLOCAL *) subst. rewrite app_assoc in *. rewrite enc_ld_rdx, enc_st_rdx in * by lia. eapply move_blk; eauto.
    - (* GLOBAL *) subst.
      pose proof (call_only [(0, need - 3); (1, a); (2, b)] F_define_global pc w M w0 r (mov_rbp 139 b ++ mov_rbp 137 a)) as K.
      unfold args in K. cbn [flat_map fst snd] in K. rewrite app_nil_r, <- !app_assoc in K.
      destruct (K ltac:(pk) eq_refl E2 A s Gs) as (s1 & Y1 & Y2 & _ & Y4). clear K.
      eapply xs_pre; [exact Y1|]. 
      rewrite !app_assoc. rewrite <- (app_assoc _ (mov_rbp 139 b)).
      rewrite (zlen_app _ (mov_rbp 139 b ++ mov_rbp 137 a)), Z.add_assoc. rewrite <- !app_assoc.
      rewrite enc_ld_rax, enc_st_rax in * by lia. eapply move_blk; eauto.
    - acall F_table_at [(0, need - 3); (2, a); (3, b)].
    - acall F_table_set [(0, need - 3); (1, a); (2, a + 1); (3, b)].
    - (* NEWLICK *) destruct (a <? b) eqn:L1.
      + bnd J. destruct (a + 1 <? b) eqn:L2; [bnd J; cbn [after]; acall F_lick [(0, need - 3); (1, a); (2, a + 1); (3, b)]|].
        cbn [bind] in J. bnd J. cbn [after]. subst.
        pose proof (lick_blk [(0, need - 3); (1, a); (2, a + 1)] [(3, a)] a pc w M) as K.
        unfold args in K. cbn [flat_map fst snd map app] in K. rewrite <- ?app_assoc in *. cbn [app] in K. rewrite ?app_nil_r in K. rewrite <- ?app_assoc in K.
        eapply K; try eassumption; try reflexivity; [pk|pk|repeat constructor].
      + cbn [bind] in J. replace (a + 1 <? b) with false in * by lia. cbn [bind] in J. bnd J. cbn [after]. subst.
        pose proof (lick_blk [(0, need - 3); (1, a)] [(2, a); (3, a)] a pc w M) as K.
        unfold args in K. cbn [flat_map fst snd map app] in K. rewrite <- ?app_assoc in *. cbn [app] in *. rewrite ?app_nil_r in K. rewrite <- ?app_assoc in K.
        eapply K; try eassumption; try reflexivity; [pk|pk|repeat constructor].
    - acall F_obj_get [(0, need - 3); (2, a); (3, b)].
    - (* SETPATH *) subst.
      pose proof (call_only [(0, need - 3); (2, a); (3, a + 1); (4, b)] F_obj_set pc w M w0 r []) as K.
      unfold args in K. cbn [flat_map fst snd] in K. rewrite !app_nil_r, <- !app_assoc in K.
      destruct (K ltac:(pk) eq_refl E3 A s Gs) as (s1 & Y1 & Y2 & _ & Y4).
      exists s1. split; assumption.
    - (* ADD *) destruct (if Z.odd v && Z.odd v0 then _ else _) as [v'|] eqn:Ej; bnd J; cbn [after]; subst;
        (eapply (math_blk F_obj_add _ a b (jmath O_ADD (M (B + slot a)) (M (B + slot b))));
         [reflexivity|vm_compute; discriminate|assumption|assumption|intros _ _; apply ops_add|rewrite Ej; first [split; reflexivity|eassumption]|exact A|exact Gs]).
    - (* SUB *) destruct (if Z.odd v && Z.odd v0 then _ else _) as [v'|] eqn:Ej; bnd J; cbn [after]; subst;
        (eapply (math_blk F_obj_sub _ a b (jmath O_SUB (M (B + slot a)) (M (B + slot b))));
         [reflexivity|vm_compute; discriminate|assumption|assumption|intros _ _; apply ops_sub|rewrite Ej; first [split; reflexivity|eassumption]|exact A|exact Gs]).
    - (* MULT *) destruct (if Z.odd v && Z.odd v0 then _ else _) as [v'|] eqn:Ej; bnd J; cbn [after]; subst;
        (eapply (math_blk F_obj_mult _ a b (jmath O_MULT (M (B + slot a)) (M (B + slot b))));
         [reflexivity|vm_compute; discriminate|assumption|assumption|intros _ _; apply ops_mult|rewrite Ej; first [split; reflexivity|eassumption]|exact A|exact Gs]).
    - (* DIV *) destruct (Z.odd v && Z.odd v0) eqn:Eo.
      + destruct (jdiv false v v0) as [q| |] eqn:Ej; cbn [bind] in J; try discriminate J. bnd J. cbn [after]. subst.
        eapply (math_blk F_obj_div (divops false) a b (Some q)); eauto; try reflexivity; [change (zlen (divops false)) with 17; lia| |].
        * intros _ _. apply ops_div. exact Ej.
        * rewrite Eo. auto.
      + bnd J. cbn [after]. subst.
        eapply (math_blk F_obj_div (divops false) a b (Some 0)); eauto; try reflexivity; [change (zlen (divops false)) with 17; lia| |].
        * intros Q1 Q2. rewrite Q1, Q2 in Eo. discriminate Eo.
        * rewrite Eo. auto.
    - (* REM *) destruct (Z.odd v && Z.odd v0) eqn:Eo.
      + destruct (jdiv true v v0) as [q| |] eqn:Ej; cbn [bind] in J; try discriminate J. bnd J. cbn [after]. subst.
        eapply (math_blk F_obj_rem (divops true) a b (Some q)); eauto; try reflexivity; [change (zlen (divops true)) with 17; lia| |].
        * intros _ _. apply ops_div. exact Ej.
        * rewrite Eo. auto.
      + bnd J. cbn [after]. subst.
        eapply (math_blk F_obj_rem (divops true) a b (Some 0)); eauto; try reflexivity; [change (zlen (divops true)) with 17; lia| |].
        * intros Q1 Q2. rewrite Q1, Q2 in Eo. discriminate Eo.
        * rewrite Eo. auto.
    - acall F_num_pow [(0, need - 3); (2, a); (3, b)].
    - (* NOT *) subst. pose proof (test_blk true a pc w M ltac:(assumption) A s Gs) as K.
      destruct (jtest (M (B + slot a))); exact K.
    - (* CMP *) subst. pose proof (test_blk false a pc w M ltac:(assumption) A s Gs) as K.
      destruct (jtest (M (B + slot a))); exact K.
    - acall F_vm_eq [(0, need - 3); (1, a); (2, b)].
    - acall F_vm_neq [(0, need - 3); (1, a); (2, b)].
    - ncmp O_LT J A Gs.
    - ncmp O_LTE J A Gs.
    - ncmp O_GT J A Gs.
    - ncmp O_GTE J A Gs.
    - (* BITN *) destruct (Z.odd v) eqn:Eo; bnd J; cbn [after]; subst; eapply bitn_blk; eauto; rewrite Eo; eauto.
    - acall F_def_method [(0, need - 3); (2, a); (3, a + 1); (4, b)].
    - acall F_bind [(0, need - 3); (1, b); (2, a)].
    - acall F_message [(0, need - 3); (1, b); (2, a)].
    - (* JMP *) eapply jmp_blk; eauto.
    - (* TEST *) subst. pose proof (test_blk false a pc w M ltac:(assumption) A s Gs) as K.
      destruct (jtest (M (B + slot a))); exact K.
    - (* TESTJMP *) subst. pose proof (testjmp_blk a d pc w M ltac:(assumption) D A s Gs) as K.
      cbv zeta in K. destruct (jtest (M (B + slot a))); [exact K|]. rewrite Z.add_0_r in K. exact K.
    - (* NOTJMP *) subst. pose proof (notjmp_blk a d pc w M ltac:(assumption) D A s Gs) as K.
      cbv zeta in K. destruct (jtest (M (B + slot a))); [|exact K]. rewrite Z.add_0_r in K. exact K.
    - (* NAMED *) destruct (a + 2 <=? 15) eqn:E15; [|discriminate J]. bnd J.
      pose proof (named_blk a b pc w M w0 r) as K. cbv zeta in K.
      replace (15 <? a + 2) with false in A by (clear - E15; lia).
      replace (15 <? a + 2) with false by (clear - E15; lia).
      destruct (s32 r <? 0) eqn:Er.
      + injection J as <- <- <-. cbn [after].
        eapply K; [lia|lia|assumption|assumption|assumption|subst; eassumption| |exact A|exact Gs].
        intros Q. clear - Er Q. lia.
      + destruct ((0 <=? r) && (r <? 2147483648)) eqn:Erb; [|discriminate J].
        bnd J. cbn [after]. subst.
        eapply K; [lia|lia|assumption|assumption|assumption|eassumption| |exact A|exact Gs].
        intros _. split; [clear - Erb; lia|assumption].
    - (* CALL *) destruct (b - a <=? 4) eqn:Eb; [|discriminate E]. apply some_inj in E. subst bs.
      cbn [jsem ic ia ib] in J. destruct ((a <=? 15) && (b - a <=? 4)) eqn:E15; [|discriminate J]. bnd J.
      destruct (fargs need B M (a + 1) (Z.to_nat (b - a))) as [l| |] eqn:El; cbn [bind] in J; try discriminate J.
      destruct (nc w v v0 l) as [[w1 r]| |] eqn:En; cbn [bind fst snd] in J; try discriminate J.
      bnd J. cbn [after]. subst. eapply call_blk2; eauto; lia.
    - acall F_get_callset [(0, need - 3); (1, b)].
    - (* RETURN *) subst. eapply return_blk; eauto.
    - acall F_vm_class [(0, need - 3); (1, b); (2, a)].
  Qed.
End Exec.
