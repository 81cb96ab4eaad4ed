(** Property C77: captured variables in machine code. *)
From Coq Require Import ZifyBool.
From Verif Require Import Base Arr GArr WordModel WordProofs AsmModel ObjModel PropIvf CompileModel X86Model JitModel JitProofs JitSem JitUpModel PropJitShift.
Ltac Zify.zify_post_hook ::= Z.div_mod_to_equations.

(** ** Specification *)
(** What happens to one variable of a running function: a closure captures it, the function
    reads or assigns it, closure number k reads or assigns it. *)
Inductive ev := Capture | OwnerGet | OwnerSet (v : Z) | ClosGet (k : nat) | ClosSet (k : nat) (v : Z).
(** What machine code makes of it: the function's variable is either one with a cell or has a value of
    its own; each closure has a cell. *)
Inductive place := Shared (id : nat) | Alone (v : Z).
Record vars := mkVars { own : place; cells : list Z; clos : list nat }.
Fixpoint put {A} (l : list A) (i : nat) (v : A) : list A :=
  match l, i with [], _ => [] | _ :: l, O => v :: l | x :: l, S i => x :: put l i v end.
Definition happens (s : vars) (e : ev) : option (vars * option Z) :=
  match e with
  | Capture =>
      match own s with
      | Shared id => Some (mkVars (Shared id) (cells s) (clos s ++ [id]), None)
      | Alone v => Some (mkVars (Shared (length (cells s))) (cells s ++ [v]) (clos s ++ [length (cells s)]), None)
      end
  | OwnerGet =>
      match own s with
      | Shared id => match nth_error (cells s) id with Some v => Some (s, Some v) | None => None end
      | Alone v => Some (s, Some v)
      end
  | OwnerSet v =>   (* an assignment separates the function's variable from the cell *)
      match own s with
      | Shared id => Some (mkVars (Alone v) (put (cells s) id v) (clos s), None)
      | Alone _ => Some (mkVars (Alone v) (cells s) (clos s), None)
      end
  | ClosGet k => match nth_error (clos s) k with
                 | Some id => match nth_error (cells s) id with Some v => Some (s, Some v) | None => None end
                 | None => None end
  | ClosSet k v => match nth_error (clos s) k with
                   | Some id => Some (mkVars (own s) (put (cells s) id v) (clos s), None)
                   | None => None end
  end.
(** What is wanted: one variable. *)
Fixpoint one_variable (v : Z) (n : nat) (h : list ev) : option (list Z) :=
  match h with
  | [] => Some []
  | Capture :: h => one_variable v (S n) h
  | OwnerGet :: h => option_map (cons v) (one_variable v n h)
  | OwnerSet v' :: h => one_variable v' n h
  | ClosGet k :: h => if (k <? n)%nat then option_map (cons v) (one_variable v n h) else None
  | ClosSet k v' :: h => if (k <? n)%nat then one_variable v' n h else None
  end.
Fixpoint answers (s : vars) (h : list ev) : option (list Z) :=
  match h with
  | [] => Some []
  | e :: h => match happens s e with
              | Some (s', Some v) => option_map (cons v) (answers s' h)
              | Some (s', None) => answers s' h
              | None => None
              end
  end.

(** ** Words of objects *)
Section Mem.
  Context {W : Type} (X : xhost W) (data : Z -> bool).   (* data a: a is not the first word of an object *)
  (** a reference object at c with value d *)
  Definition cell (w : W) (c d : Z) : Prop :=
    c mod 8 = 0 /\ 0 <= c < two64 - 8 /\ c mod two32 <> 0 /\
    exists t, xh_load X w c = Ok t /\ t mod two32 = PN_TWEAK /\ xh_load X w (c + 8) = Ok d /\ data c = false /\ data (c + 8) = true.
  (** a value that is no reference: an integer, nil, true, false, or another object *)
  Definition plain (w : W) (v : Z) : Prop :=
    Z.odd v = true \/ Z.land (u32 v) (two32 - 8) = 0 \/
    exists t, xh_load X w v = Ok t /\ t mod two32 <> PN_TWEAK /\ v mod 8 = 0 /\ data v = false.
  (** stores change one word; potion_ref makes a new reference while there is room, or answers its argument *)
  Record memory (room : W -> Prop) (fref : Z) : Prop := mkMem {
    m_store : forall w a v t, a mod 8 = 0 -> data a = true -> xh_load X w a = Ok t ->
      exists w', xh_store X w a v = Ok w' /\ forall b, b mod 8 = 0 -> xh_load X w' b = if b =? a then Ok v else xh_load X w b;
    m_new : forall w v, room w -> plain w v -> exists w' c, (forall p L, xh_call X w fref (p :: v :: L) = Ok (w', c)) /\ cell w' c v /\
      xh_load X w c = UB /\ xh_load X w (c + 8) = UB /\
      forall b, b mod 8 = 0 -> b <> c -> b <> c + 8 -> xh_load X w' b = xh_load X w b;
    m_old : forall w p v d L, cell w v d -> xh_call X w fref (p :: v :: L) = Ok (w, v) }.
End Mem.

    Lemma mask8 c : c mod 8 = 0 -> c mod two32 <> 0 -> Z.land (u32 c) (two32 - 8) <> 0.
    Proof.
      intros A C. change (two32 - 8) with (Z.shiftl (Z.ones 29) 3). unfold u32. intros E. apply C. clear C.
      set (x := c mod two32) in *. assert (X0 : 0 <= x < two32) by (unfold x, two32; lia). assert (X8 : x mod 8 = 0) by (unfold x, two32; lia).
      replace x with (Z.shiftl (x / 8) 3) in E by (rewrite Z.shiftl_mul_pow2 by lia; change (2 ^ 3) with 8; lia).
      rewrite <- Z.shiftl_land, Z.land_ones in E by lia. rewrite Z.shiftl_mul_pow2 in E by lia. unfold two32 in *.
      change (2 ^ 29) with 536870912 in E. change (2 ^ 3) with 8 in E. lia.
    Qed.
    Lemma even8 c : c mod 8 = 0 -> Z.odd c = false.
    Proof. intros H. replace c with (2 * (c / 2)) by lia. rewrite Z.odd_mul. reflexivity. Qed.
Section Code.
  Context {W : Type} (X : xhost W) (data : Z -> bool) (S0 B Sp : Z) (HB : B mod 8 = 0) (HA16 : Sp mod 16 = 0).
  Notation inframe := (inframe B Sp).
  Section At.
    Context (code : list Z).
    Notation xs := (xs X code S0).
    Notation at_ := (at_ code).
    Ltac go1 := cbn [exec x_r x_m x_f x_w x_pc]; reflexivity.
    Lemma ldk q r rest pc R f m w (P : xst W -> Prop) : gpr q = true -> inframe r -> R RBP = B ->
      at_ pc (enc_reg 139 q (slot r) ++ rest) ->
      (at_ (pc + zlen (enc_reg 139 q (slot r))) rest ->
        exists s', xs (mkX (pc + zlen (enc_reg 139 q (slot r))) (setr R q (m (B + slot r))) f m w) s' /\ P s') ->
      exists s', xs (mkX pc R f m w) s' /\ P s'.
    Proof.
      intros Q F E A K. eapply (step1 X code S0); [exact A|apply decs_ld; [exact Q|unfold slot; destruct F; lia]| |exact K].
      cbn [exec x_r x_m x_f x_w x_pc]. rewrite E, slot_al by exact HB. reflexivity.
    Qed.
    Lemma stk q r rest pc R f m w (P : xst W -> Prop) : gpr q = true -> inframe r -> R RBP = B ->
      at_ pc (enc_reg 137 q (slot r) ++ rest) ->
      (at_ (pc + zlen (enc_reg 137 q (slot r))) rest ->
        exists s', xs (mkX (pc + zlen (enc_reg 137 q (slot r))) R f (setm m (B + slot r) (R q)) w) s' /\ P s') ->
      exists s', xs (mkX pc R f m w) s' /\ P s'.
    Proof.
      intros Q F E A K. eapply (step1 X code S0); [exact A|apply decs_st; [exact Q|unfold slot; destruct F; lia]| |exact K].
      cbn [exec x_r x_m x_f x_w x_pc]. rewrite E, slot_al by exact HB. reflexivity.
    Qed.
    Lemma jck c d rest pc R f m w (P : xst W -> Prop) : 0 <= d < 128 -> at_ pc ([enc_cc c; d] ++ rest) ->
      (at_ (pc + 2) rest -> exists s', xs (mkX (if cond c f then pc + 2 + d else pc + 2) R f m w) s' /\ P s') ->
      exists s', xs (mkX pc R f m w) s' /\ P s'.
    Proof.
      intros D A K. eapply (step1 X code S0 [enc_cc c; d] (XJcc c d)); [exact A| |go1|exact K].
      replace d with (d mod 256) at 1 by lia. apply decs_jcc. lia.
    Qed.
    (** the test for a reference *)
    Lemma ref_pre k rest pc R f m w (P : xst W -> Prop) : at_ pc (ref_test k ++ rest) -> zlen k = 4 ->
      (forall f', (Z.odd (R RAX) = true \/ Z.land (u32 (R RAX)) (two32 - 8) = 0 \/ exists t, xh_load X w (R RAX) = Ok t /\ t mod two32 <> PN_TWEAK) -> at_ (pc + 25) rest -> exists s', xs (mkX (pc + 25) R f' m w) s' /\ P s') ->
      (forall t, Z.odd (R RAX) = false -> Z.land (u32 (R RAX)) (two32 - 8) <> 0 -> xh_load X w (R RAX) = Ok t -> t mod two32 = PN_TWEAK ->
        forall f', at_ (pc + 21) (k ++ rest) -> exists s', xs (mkX (pc + 21) R f' m w) s' /\ P s') ->
      (Z.odd (R RAX) = false -> Z.land (u32 (R RAX)) (two32 - 8) <> 0 -> exists t, xh_load X w (R RAX) = Ok t) ->
      exists s', xs (mkX pc R f m w) s' /\ P s'.
    Proof.
      intros A Lk Kno Kyes Kl.
      assert (A25 : at_ (pc + 25) rest).
      { pose proof A as A'. apply at_skip in A'. replace (zlen (ref_test k)) with 25 in A'; [exact A'|].
        unfold ref_test, ASMI. rewrite !zlen_app, !zlen_le, Lk. reflexivity. }
      unfold ref_test in A. rewrite <- !app_assoc in A.
      eapply (step1 X code S0 [246; 192; 1] (XTest1 RAX)); [exact A|intros ?; reflexivity|go1|]. clear A; intros A. change (zlen [246; 192; 1]) with 3 in *.
      eapply (jck CNE 20); [lia|exact A|]. clear A; intros A. cbn [cond f_z]. rewrite negb_involutive.
      destruct (Z.odd (R RAX)) eqn:O.
      { replace (pc + 3 + 2 + 20) with (pc + 25) by lia. apply Kno; [left; reflexivity | exact A25]. }
      rewrite (app_assoc [247; 192]) in A.
      eapply (step1 X code S0 ([247; 192] ++ ASMI PN_REF_MASK) (XTestI PN_REF_MASK)); [exact A|apply decs_testi; unfold PN_REF_MASK; lia|go1|]. clear A; intros A.
      change (zlen ([247; 192] ++ ASMI PN_REF_MASK)) with 6 in *. rewrite land_rm in *.
      eapply (jck CE 12); [lia|exact A|]. clear A; intros A. cbn [cond f_z].
      destruct (Z.land (u32 (R RAX)) (two32 - 8) =? 0) eqn:Z0.
      { replace (pc + 3 + 2 + 6 + 2 + 12) with (pc + 25) by lia. apply Kno; [right; left; lia | exact A25]. }
      destruct (Kl eq_refl ltac:(lia)) as (t & T).
      rewrite (app_assoc [129; 56]) in A.
      eapply (step1 X code S0 ([129; 56] ++ ASMI PN_TWEAK) (XCmpM PN_TWEAK)); [exact A|apply decs_cmpm; unfold PN_TWEAK; lia|
        cbn [exec x_r x_m x_f x_w x_pc]; rewrite T; cbn [bind]; reflexivity|]. clear A; intros A.
      change (zlen ([129; 56] ++ ASMI PN_TWEAK)) with 6 in *.
      eapply (jck CNE 4); [lia|exact A|]. clear A; intros A. cbn [cond f_z].
      destruct (u32 (t - PN_TWEAK) =? 0) eqn:T0; cbn [negb].
      - replace (pc + 3 + 2 + 6 + 2 + 6 + 2) with (pc + 21) in * by lia. apply (Kyes t); auto; [lia|]. unfold u32, two32, PN_TWEAK in *. lia.
      - replace (pc + 3 + 2 + 6 + 2 + 6 + 2 + 4) with (pc + 25) by lia. apply Kno; [|exact A25]. right. right. exists t. split; [exact T|]. unfold u32, two32, PN_TWEAK in *. lia.
    Qed.
    Lemma ref_no k rest pc R f m w (P : xst W -> Prop) : at_ pc (ref_test k ++ rest) -> zlen k = 4 -> plain X data w (R RAX) ->
      (forall f', at_ (pc + 25) rest -> exists s', xs (mkX (pc + 25) R f' m w) s' /\ P s') -> exists s', xs (mkX pc R f m w) s' /\ P s'.
    Proof.
      intros A Lk Pl K. eapply ref_pre; [exact A|exact Lk|intros f' _; exact (K f')| |].
      - intros t O Z0 T Tw. exfalso. destruct Pl as [Q|[Q|(t' & Q1 & Q2 & _)]]; congruence.
      - intros O Z0. destruct Pl as [Q|[Q|(t' & Q1 & Q2 & _)]]; [congruence|congruence|eauto].
    Qed.
    Lemma ref_yes k rest pc R f m w d (P : xst W -> Prop) : at_ pc (ref_test k ++ rest) -> zlen k = 4 -> cell X data w (R RAX) d ->
      (forall f', at_ (pc + 21) (k ++ rest) -> exists s', xs (mkX (pc + 21) R f' m w) s' /\ P s') -> exists s', xs (mkX pc R f m w) s' /\ P s'.
    Proof.
      intros A Lk (C1 & C2 & C3 & t & C4 & C5 & C6 & C7 & C8) K. pose proof (even8 _ C1) as O. pose proof (mask8 _ C1 C3) as Z0.
      eapply ref_pre; [exact A|exact Lk| | |].
      - intros f' [Q|[Q|(t' & Q1 & Q2)]]; exfalso; congruence.
      - intros t' _ _ _ _. exact K.
      - intros _ _. eauto.
    Qed.
  End At.
  Notation runs := (runs X S0 B Sp).
  Ltac go1 := cbn [exec x_r x_m x_f x_w x_pc]; reflexivity.
  Ltac start := let pc0 := fresh "pc0" in let w0 := fresh "w0" in
    intros code pc [pc0 R f m w0] A [g1 g2 g3 g4 g5]; cbn [x_pc x_r x_f x_m x_w] in g1, g2, g3, g4, g5; subst pc0 w0.
  Lemma runs_app b1 b2 w M w1 M1 w2 M2 : runs b1 w M w1 M1 -> runs b2 w1 M1 w2 M2 -> runs (b1 ++ b2) w M w2 M2.
  Proof.
    intros A1 A2 code pc s A Gs. apply at_app in A as [Q1 Q2]. destruct (A1 code pc s Q1 Gs) as (s1 & Y1 & Y2).
    destruct (A2 code _ s1 Q2 Y2) as (s2 & Z1 & Z2). exists s2. rewrite zlen_app, Z.add_assoc. split; [eapply xs_trans; eassumption | exact Z2].
  Qed.
  Lemma runs_nil w M : runs [] w M w M.
  Proof. intros code pc s A Gs. exists s. change (zlen (@nil Z)) with 0. rewrite Z.add_0_r. split; [apply xs_refl | exact Gs]. Qed.
  Lemma getlocal_plain regs a b w M : inframe (regs + b) -> inframe a -> plain X data w (M (B + slot (regs + b))) ->
    runs (getlocal_up regs a b) w M w (setm M (B + slot a) (M (B + slot (regs + b)))).
  Proof.
    intros Fb Fa Pl. start. unfold getlocal_up in *. rewrite (enc_ld_rax (regs + b)), (enc_st_rax a) in * by (apply Fa || apply Fb).
    eapply (ldk code RAX); [reflexivity|exact Fb|exact g2|exact A|]. clear A; intros A.
    eapply ref_no; [exact A|reflexivity|unfold setr; cbn [reg_eqb]; rewrite g5 by apply Fb; exact Pl|]. clear A; intros f' A.
    rewrite <- (app_nil_r (enc_reg 137 _ _)) in A.
    eapply (stk code RAX); [reflexivity|exact Fa|exact g2|exact A|]. intros _. apply finish.
    unfold setr at 2. cbn [reg_eqb]. rewrite (g5 (B + slot (regs + b))) by apply Fb.
    match goal with |- G _ _ ?x _ _ (mkX ?y _ _ _ _) => replace x with y end; [apply G_put; auto|].
    rewrite !zlen_app. change (zlen (ref_test [72; 139; 64; 8])) with 25. lia.
  Qed.
  Lemma getlocal_ref regs a b w M d : inframe (regs + b) -> inframe a -> cell X data w (M (B + slot (regs + b))) d ->
    runs (getlocal_up regs a b) w M w (setm M (B + slot a) d).
  Proof.
    intros Fb Fa Pl. start. unfold getlocal_up in *. rewrite (enc_ld_rax (regs + b)), (enc_st_rax a) in * by (apply Fa || apply Fb).
    eapply (ldk code RAX); [reflexivity|exact Fb|exact g2|exact A|]. clear A; intros A.
    eapply ref_yes; [exact A|reflexivity|unfold setr; cbn [reg_eqb]; rewrite g5 by apply Fb; exact Pl|]. clear A; intros f' A.
    destruct Pl as (C1 & C2 & C3 & t & C4 & C5 & C6 & C7 & C8).
    eapply (step1 X code S0 [72; 139; 64; 8] (XLdA 8)); [exact A|intros ?; reflexivity| |].
    { cbn [exec x_r x_m x_f x_w x_pc]. unfold setr at 1. cbn [reg_eqb]. rewrite g5 by apply Fb. replace (u64 _) with (M (B + slot (regs + b)) + 8) by (unfold u64, two64 in *; lia).
      rewrite C6. cbn [bind]. reflexivity. }
    clear A; intros A. change (zlen [72; 139; 64; 8]) with 4 in *.
    rewrite <- (app_nil_r (enc_reg 137 _ _)) in A.
    eapply (stk code RAX); [reflexivity|exact Fa|exact g2|exact A|]. intros _. apply finish.
    unfold setr at 3. cbn [reg_eqb].
    match goal with |- G _ _ ?x _ _ (mkX ?y _ _ _ _) => replace x with y end; [apply G_put; auto|].
    rewrite !zlen_app. change (zlen (ref_test [72; 139; 64; 8])) with 25. lia.
  Qed.
  Lemma setlocal_plain regs a b w M : inframe (regs + b) -> inframe a -> plain X data w (M (B + slot (regs + b))) ->
    runs (setlocal_up regs a b) w M w (setm M (B + slot (regs + b)) (M (B + slot a))).
  Proof.
    intros Fb Fa Pl. start. unfold setlocal_up in *. rewrite (enc_ld_rax (regs + b)), (enc_st_rdx (regs + b)), (enc_ld_rdx a) in * by (apply Fa || apply Fb).
    eapply (ldk code RDX); [reflexivity|exact Fa|exact g2|exact A|]. clear A; intros A.
    eapply (ldk code RAX); [reflexivity|exact Fb|exact g2|exact A|]. clear A; intros A.
    eapply ref_no; [exact A|reflexivity|unfold setr; cbn [reg_eqb]; rewrite g5 by apply Fb; exact Pl|]. clear A; intros f' A.
    rewrite <- (app_nil_r (enc_reg 137 _ _)) in A.
    eapply (stk code RDX); [reflexivity|exact Fb|exact g2|exact A|]. intros _. apply finish.
    match goal with |- context [setm m _ ?v] => replace v with (M (B + slot a)) by (unfold setr; cbn [reg_eqb]; symmetry; apply g5, Fa) end.
    match goal with |- G _ _ ?x _ _ (mkX ?y _ _ _ _) => replace x with y end; [apply G_put; auto|].
    rewrite !zlen_app. change (zlen (ref_test [72; 137; 80; 8])) with 25. lia.
  Qed.
  Lemma setlocal_ref regs a b w M d w' : inframe (regs + b) -> inframe a -> cell X data w (M (B + slot (regs + b))) d ->
    xh_store X w (M (B + slot (regs + b)) + 8) (M (B + slot a)) = Ok w' ->
    runs (setlocal_up regs a b) w M w' (setm M (B + slot (regs + b)) (M (B + slot a))).
  Proof.
    intros Fb Fa Pl St. start. unfold setlocal_up in *. rewrite (enc_ld_rax (regs + b)), (enc_st_rdx (regs + b)), (enc_ld_rdx a) in * by (apply Fa || apply Fb).
    eapply (ldk code RDX); [reflexivity|exact Fa|exact g2|exact A|]. clear A; intros A.
    eapply (ldk code RAX); [reflexivity|exact Fb|exact g2|exact A|]. clear A; intros A.
    eapply ref_yes; [exact A|reflexivity|unfold setr; cbn [reg_eqb]; rewrite g5 by apply Fb; exact Pl|]. clear A; intros f' A.
    destruct Pl as (C1 & C2 & C3 & t & C4 & C5 & C6 & C7 & C8).
    match goal with |- context [mkX _ ?r f' m w] => assert (V1 : r RAX = M (B + slot (regs + b))) by (unfold setr; cbn [reg_eqb]; apply g5, Fb);
      assert (V2 : r RDX = M (B + slot a)) by (unfold setr; cbn [reg_eqb]; apply g5, Fa); assert (V3 : r RBP = B) by exact g2; assert (V4 : r RSP = Sp) by exact g3; set (R1 := r) in * end. clearbody R1.
    eapply (step1 X code S0 [72; 137; 80; 8] (XStA 8)); [exact A|intros ?; reflexivity| |].
    { cbn [exec x_r x_m x_f x_w x_pc]. rewrite V1, V2. replace (u64 _) with (M (B + slot (regs + b)) + 8) by (unfold u64, two64 in *; lia).
      rewrite St. cbn [bind]. reflexivity. }
    clear A; intros A. change (zlen [72; 137; 80; 8]) with 4 in *.
    rewrite <- (app_nil_r (enc_reg 137 _ _)) in A.
    eapply (stk code RDX); [reflexivity|exact Fb|exact V3|exact A|]. intros _. apply finish. rewrite V2.
    match goal with |- G _ _ ?x _ _ (mkX ?y _ _ _ _) => replace x with y end; [apply G_put; auto|].
    rewrite !zlen_app. change (zlen (ref_test [72; 137; 80; 8])) with 25. lia.
  Qed.
  Lemma getupval_ok lregs a b w M d : inframe (lregs + b) -> inframe a -> cell X data w (M (B + slot (lregs + b))) d ->
    runs (getupval lregs a b) w M w (setm M (B + slot a) d).
  Proof.
    intros Fb Fa Pl. start. unfold getupval in *. rewrite (enc_ld_rax (lregs + b)), (enc_st_rax a) in * by (apply Fa || apply Fb).
    eapply (ldk code RAX); [reflexivity|exact Fb|exact g2|exact A|]. clear A; intros A.
    destruct Pl as (C1 & C2 & C3 & t & C4 & C5 & C6 & C7 & C8).
    eapply (step1 X code S0 [72; 139; 64; 8] (XLdA 8)); [exact A|intros ?; reflexivity| |].
    { cbn [exec x_r x_m x_f x_w x_pc]. unfold setr at 1. cbn [reg_eqb]. rewrite g5 by apply Fb. replace (u64 _) with (M (B + slot (lregs + b)) + 8) by (unfold u64, two64 in *; lia).
      rewrite C6. cbn [bind]. reflexivity. }
    clear A; intros A. change (zlen [72; 139; 64; 8]) with 4 in *.
    rewrite <- (app_nil_r (enc_reg 137 _ _)) in A.
    eapply (stk code RAX); [reflexivity|exact Fa|exact g2|exact A|]. intros _. apply finish.
    unfold setr at 3. cbn [reg_eqb].
    match goal with |- G _ _ ?x _ _ (mkX ?y _ _ _ _) => replace x with y end; [apply G_put; auto|].
    rewrite !zlen_app. change (zlen [72; 139; 64; 8]) with 4. lia.
  Qed.
  Lemma setupval_ok lregs a b w M d w' : inframe (lregs + b) -> inframe a -> cell X data w (M (B + slot (lregs + b))) d ->
    xh_store X w (M (B + slot (lregs + b)) + 8) (M (B + slot a)) = Ok w' ->
    runs (setupval lregs a b) w M w' M.
  Proof.
    intros Fb Fa Pl St. start. unfold setupval in *. rewrite (enc_ld_rax (lregs + b)), (enc_ld_rdx a) in * by (apply Fa || apply Fb).
    eapply (ldk code RDX); [reflexivity|exact Fa|exact g2|exact A|]. clear A; intros A.
    eapply (ldk code RAX); [reflexivity|exact Fb|exact g2|exact A|]. clear A; intros A.
    destruct Pl as (C1 & C2 & C3 & t & C4 & C5 & C6 & C7 & C8). rewrite <- (app_nil_r [72; 137; 80; 8]) in A.
    eapply (step1 X code S0 [72; 137; 80; 8] (XStA 8)); [exact A|intros ?; reflexivity| |].
    { cbn [exec x_r x_m x_f x_w x_pc]. unfold setr. cbn [reg_eqb]. rewrite !g5 by (apply Fb || apply Fa). replace (u64 _) with (M (B + slot (lregs + b)) + 8) by (unfold u64, two64 in *; lia).
      rewrite St. cbn [bind]. reflexivity. }
    intros _. apply finish. apply G_same; auto. rewrite !zlen_app. lia.
  Qed.
  (** the displacement of a captured variable *)
  Lemma decs_ldd n : 0 <= n < 2147483648 -> decs ([72; 139] ++ up_disp 64 n) (XLdA n).
  Proof.
    intros H rest. unfold up_disp. destruct (128 <=? n) eqn:L.
    - rewrite <- app_assoc. change (zlen ([72; 139] ++ (64 + 64) :: ASMI n)) with (3 + zlen (ASMI n)). unfold ASMI. rewrite zlen_le. change (64 + 64) with 128. cbn [app].
      change (dec (72 :: 139 :: 128 :: le_bytes 4 n ++ rest)) with
        (match take_n 4 (le_bytes 4 n ++ rest) with Some (d, _) => Some (XLdA (s32 (le_val d)), 7) | None => None end).
      rewrite take4, le4_s32 by lia. reflexivity.
    - cbn. unfold i8. replace (n <? 128) with true by lia. reflexivity.
  Qed.
  Lemma decs_std n : 0 <= n < 2147483648 -> decs ([72; 137] ++ up_disp 80 n) (XStA n).
  Proof.
    intros H rest. unfold up_disp. destruct (128 <=? n) eqn:L.
    - rewrite <- app_assoc. change (zlen ([72; 137] ++ (80 + 64) :: ASMI n)) with (3 + zlen (ASMI n)). unfold ASMI. rewrite zlen_le. change (80 + 64) with 144. cbn [app].
      change (dec (72 :: 137 :: 144 :: le_bytes 4 n ++ rest)) with
        (match take_n 4 (le_bytes 4 n ++ rest) with Some (d, _) => Some (XStA (s32 (le_val d)), 7) | None => None end).
      rewrite take4, le4_s32 by lia. reflexivity.
    - cbn. unfold i8. replace (n <? 128) with true by lia. reflexivity.
  Qed.
  Lemma upval_one lregs start i w M c : inframe (start - 2) -> inframe (lregs + i) -> 0 <= i < 4096 ->
    0 <= M (B + slot (start - 2)) < two64 - 65536 -> xh_load X w (M (B + slot (start - 2)) + up_off i) = Ok c ->
    runs (mov_rbp 139 (start - 2) ++ ([72; 139] ++ up_disp 64 (up_off i)) ++ mov_rbp 137 (lregs + i)) w M w (setm M (B + slot (lregs + i)) c).
  Proof.
    intros Fs Fi Hi Hp L. start. rewrite (enc_ld_rax (start - 2)), (enc_st_rax (lregs + i)) in * by (apply Fs || apply Fi).
    eapply (ldk code RAX); [reflexivity|exact Fs|exact g2|exact A|]. clear A; intros A.
    eapply (step1 X code S0 ([72; 139] ++ up_disp 64 (up_off i)) (XLdA (up_off i))); [exact A|apply decs_ldd; unfold up_off; lia| |].
    { cbn [exec x_r x_m x_f x_w x_pc]. unfold setr at 1. cbn [reg_eqb]. rewrite g5 by apply Fs. replace (u64 _) with (M (B + slot (start - 2)) + up_off i) by (unfold u64, up_off, two64 in *; lia).
      rewrite L. cbn [bind]. reflexivity. }
    clear A; intros A. rewrite <- (app_nil_r (enc_reg 137 _ _)) in A.
    eapply (stk code RAX); [reflexivity|exact Fi|exact g2|exact A|]. intros _. apply finish.
    unfold setr at 3. cbn [reg_eqb].
    match goal with |- G _ _ ?x _ _ (mkX ?y _ _ _ _) => replace x with y end; [apply G_put; auto|].
    rewrite !(zlen_app (enc_reg 139 _ _)), (zlen_app ([72; 139] ++ _)). lia.
  Qed.
  Lemma slot_eq r q : B + slot r = B + slot q -> r = q. Proof. unfold slot. lia. Qed.
  Lemma upvals_ok lregs start w p : forall n i M, inframe (start - 2) -> M (B + slot (start - 2)) = p -> 0 <= p < two64 - 65536 ->
    0 <= i -> i + Z.of_nat n <= 4096 -> (forall j, i <= j < i + Z.of_nat n -> inframe (lregs + j) /\ exists c, xh_load X w (p + up_off j) = Ok c) ->
    lregs + i + Z.of_nat n <= start - 2 ->
    exists M', runs (upvals_from lregs start i n) w M w M' /\
      (forall j, i <= j < i + Z.of_nat n -> xh_load X w (p + up_off j) = Ok (M' (B + slot (lregs + j)))) /\
      (forall r, r < lregs + i \/ lregs + i + Z.of_nat n <= r -> M' (B + slot r) = M (B + slot r)).
  Proof.
    induction n as [|n IH]; intros i M Fs E Hp Hi Hn HL HS.
    - exists M. split; [apply runs_nil|]. split; [lia|reflexivity].
    - destruct (HL i ltac:(lia)) as (Fi & c & C).
      destruct (IH (i + 1) (setm M (B + slot (lregs + i)) c)) as (M' & Q1 & Q2 & Q3); try lia; try assumption.
      { unfold setm. destruct (_ =? _) eqn:E1; [apply Z.eqb_eq, slot_eq in E1; lia | exact E]. }
      { intros j Hj. apply HL. lia. }
      exists M'. split; [|split].
      + change (upvals_from lregs start i (S n)) with ((mov_rbp 139 (start - 2) ++ ([72; 139] ++ up_disp 64 (up_off i)) ++ mov_rbp 137 (lregs + i) ++ upvals_from lregs start (i + 1) n)).
        rewrite !(app_assoc (mov_rbp 139 _)), (app_assoc _ (mov_rbp 137 _)).
        eapply runs_app; [|exact Q1]. rewrite <- !app_assoc. rewrite (app_assoc [72; 139]). apply upval_one; try assumption; try lia; rewrite E; assumption.
      + intros j Hj. destruct (Z.eq_dec j i) as [->|N]; [|apply Q2; lia].
        rewrite Q3 by lia. unfold setm. rewrite Z.eqb_refl. exact C.
      + intros r Hr. rewrite Q3 by lia. unfold setm. destruct (_ =? _) eqn:E1; [apply Z.eqb_eq, slot_eq in E1; lia | reflexivity].
  Qed.
  (** capturing a local *)
  Context (addr : cfun -> Z) (Haddr : forall g, 0 <= addr g < two64).
  Lemma bind_ok regs start a b i w M w1 c w' : inframe (start - 3) -> inframe (regs + b) -> inframe a -> a <> regs + b -> 0 <= i < 4096 ->
    0 <= M (B + slot a) < two64 - 65536 ->
    (forall L, xh_call X w (addr F_ref) (M (B + slot (start - 3)) :: M (B + slot (regs + b)) :: L) = Ok (w1, c)) ->
    xh_store X w1 (M (B + slot a) + up_off i) c = Ok w' ->
    runs (bind_local addr regs start a b i) w M w' (setm M (B + slot (regs + b)) c).
  Proof.
    intros Fs Fb Fa Nab Hi Hp Hc St code pc s A Gs. unfold bind_local in *.
    rewrite (argo_enc (start - 3)), (argo_enc (regs + b)), (enc_ld_rax a), (enc_st_rax (regs + b)) in * by (apply Fs || apply Fa || apply Fb).
    change (argreg 0) with RDI in *. change (argreg 1) with RSI in *.
    set (l := [(RDI, start - 3); (RSI, regs + b)]).
    assert (EA : at_ code pc (loads l ++ callf addr F_ref ++ [72; 137; 194] ++ enc_reg 137 RAX (slot (regs + b)) ++ enc_reg 139 RAX (slot a) ++ ([72; 137] ++ up_disp 80 (up_off i)))).
    { unfold loads, l. cbn [flat_map fst snd]. rewrite app_nil_r, <- !app_assoc. exact A. }
    assert (Q1 : Forall (fun p => gpr (fst p) = true /\ inframe (snd p)) l)
      by (unfold l; apply Forall_cons; [split; [reflexivity|exact Fs]|apply Forall_cons; [split; [reflexivity|exact Fb]|apply Forall_nil]]).
    assert (Q2 : NoDup (map fst l)) by (unfold l; cbn; constructor; [intros [Q|[]]; discriminate Q|constructor; [intros []|constructor]]).
    assert (Q3 : ~ In RAX (map fst l)) by (cbn; intuition discriminate).
    assert (Q4 : forall R, (forall q r, In (q, r) l -> R q = M (B + slot r)) -> xh_call X w (addr F_ref) [R RDI; R RSI; R RDX; R RCX; R R8; R R9] = Ok (w1, c)).
    { intros R HR. rewrite (HR RDI (start - 3)), (HR RSI (regs + b)) by (cbn; auto). apply Hc. }
    destruct (call_ok X code S0 B Sp HB HA16 addr Haddr l F_ref pc w M s _ w1 c Q1 Q2 Q3 Gs EA Q4) as (s1 & Y1 & Y2 & Y3 & Y4).
    eapply xs_pre; [exact Y1|]. destruct s1 as [pc1 R f m w0]. destruct Y2 as [g1 g2 g3 g4 g5]. cbn [x_pc x_r x_f x_m x_w] in *. subst pc1 w0.
    eapply (step1 X code S0 [72; 137; 194] XMovDx); [exact Y4|intros ?; reflexivity|go1|]. clear Y4; intros Y4. change (zlen [72; 137; 194]) with 3 in *.
    eapply (stk code RAX); [reflexivity|exact Fb|exact g2|exact Y4|]. clear Y4; intros Y4.
    eapply (ldk code RAX); [reflexivity|exact Fa|exact g2|exact Y4|]. clear Y4; intros Y4.
    match goal with |- context [mkX _ ?r f ?mm w1] => assert (V1 : r RAX = M (B + slot a));
      [unfold setr; cbn [reg_eqb]; unfold setm; replace (_ =? _) with false by (unfold slot; lia); apply g5, Fa|];
      assert (V2 : r RDX = c) by (unfold setr; cbn [reg_eqb]; exact Y3); assert (V3 : r RBP = B) by exact g2; assert (V4 : r RSP = Sp) by exact g3;
      set (R1 := r) in * end. clearbody R1.
    rewrite <- (app_nil_r (_ ++ up_disp _ _)) in Y4.
    eapply (step1 X code S0 ([72; 137] ++ up_disp 80 (up_off i)) (XStA (up_off i))); [exact Y4|apply decs_std; unfold up_off; lia| |].
    { cbn [exec x_r x_m x_f x_w x_pc]. rewrite V1, V2. replace (u64 _) with (M (B + slot a) + up_off i) by (unfold u64, up_off, two64 in *; lia).
      rewrite St. cbn [bind]. reflexivity. }
    intros _. apply finish. unfold setr at 1. cbn [reg_eqb]. rewrite Y3.
    match goal with |- G _ _ ?x _ _ (mkX ?y _ _ _ _) => replace x with y end; [apply G_put; auto|].
    unfold loads, l. cbn [flat_map fst snd]. rewrite app_nil_r. rewrite !zlen_app. change (zlen [72; 137; 194]) with 3. lia.
  Qed.
End Code.

(** ** Histories *)
Section Hist.
  Context {W : Type} (X : xhost W) (data : Z -> bool) (room : W -> Prop) (S0 : Z) (addr : cfun -> Z).
  (** the function's frame: rbp B, rsp Sp; its variable is local b, its locals are registers regs.. *)
  Context (B Sp regs start b : Z).
  Notation V := (B + slot (regs + b)).
  Notation inframe := (inframe B Sp).
  Definition word (pi : Z * Z) : Z := fst pi + up_off (snd pi).
  (** what other code leaves alone between two events: the variable, the words of the closures, the cells *)
  Definition quiet (w : W) (M : Z -> Z) (ps : list (Z * Z)) (cs : list Z) (w0 : W) (M0 : Z -> Z) : Prop :=
    M0 V = M V /\ (plain X data w (M V) -> plain X data w0 (M V)) /\
    (forall pi, In pi ps -> xh_load X w0 (word pi) = xh_load X w (word pi)) /\
    (forall c, In c cs -> xh_load X w0 c = xh_load X w c /\ xh_load X w0 (c + 8) = xh_load X w (c + 8)).
  (** a frame of the code of closure p with upc captured variables *)
  Record inner (w : W) (p i B2 Sp2 lregs2 start2 upc a2 : Z) (M2 : Z -> Z) : Prop := mkInner {
    in_B : B2 mod 8 = 0; in_Sp : Sp2 mod 16 = 0; in_upc : 0 <= i < upc; in_max : upc <= 4096;
    in_p : M2 (B2 + slot (start2 - 2)) = p; in_start : JitProofs.inframe B2 Sp2 (start2 - 2); in_a : JitProofs.inframe B2 Sp2 a2; in_al : a2 < lregs2;
    in_up : forall j, 0 <= j < upc -> JitProofs.inframe B2 Sp2 (lregs2 + j) /\ exists c, xh_load X w (p + up_off j) = Ok c;
    in_fit : lregs2 + upc <= start2 - 2 }.
  (** the machine code gives the answers [out] to the history [h]: ps are the closures that captured the
      variable (with the index they have it at), cs the addresses of the cells *)
  Fixpoint follows (h : list ev) (out : list Z) (w : W) (M : Z -> Z) (ps : list (Z * Z)) (cs : list Z) : Prop :=
    match h with
    | [] => out = []
    | e :: h => forall w0 M0, quiet w M ps cs w0 M0 ->
      match e with
      | Capture => forall a p i t, room w0 -> inframe a -> a <> regs + b -> M0 (B + slot a) = p -> p mod 8 = 0 -> 0 <= p < two64 - 65536 -> 0 <= i < 4096 ->
          data (p + up_off i) = true -> xh_load X w0 (p + up_off i) = Ok t -> ~ In (p + up_off i) (map word ps) -> ~ In (p + up_off i) (map (Z.add 8) cs) ->
          exists w' M' cs', runs X S0 B Sp (bind_local addr regs start a b i) w0 M0 w' M' /\ follows h out w' M' (ps ++ [(p, i)]) cs'
      | OwnerGet => forall a, inframe a -> a <> regs + b ->
          exists M' v out', out = v :: out' /\ runs X S0 B Sp (getlocal_up regs a b) w0 M0 w0 M' /\ M' (B + slot a) = v /\ follows h out' w0 M' ps cs
      | OwnerSet v => forall a, inframe a -> M0 (B + slot a) = v -> plain X data w0 v ->
          exists w' M', runs X S0 B Sp (setlocal_up regs a b) w0 M0 w' M' /\ follows h out w' M' ps cs
      | ClosGet k => exists p i, nth_error ps k = Some (p, i) /\
          forall B2 Sp2 lregs2 start2 upc a2 M2, inner w0 p i B2 Sp2 lregs2 start2 upc a2 M2 ->
          exists M2' v out', out = v :: out' /\ runs X S0 B2 Sp2 (x86_upvals lregs2 start2 upc ++ getupval lregs2 a2 i) w0 M2 w0 M2' /\
            M2' (B2 + slot a2) = v /\ follows h out' w0 M0 ps cs
      | ClosSet k v => exists p i, nth_error ps k = Some (p, i) /\
          forall B2 Sp2 lregs2 start2 upc a2 M2, inner w0 p i B2 Sp2 lregs2 start2 upc a2 M2 -> M2 (B2 + slot a2) = v ->
          exists w' M2', runs X S0 B2 Sp2 (x86_upvals lregs2 start2 upc ++ setupval lregs2 a2 i) w0 M2 w' M2' /\ follows h out w' M0 ps cs
      end
    end.
  (** ** Proof *)
  Context (HB : B mod 8 = 0) (HA16 : Sp mod 16 = 0) (Fb : inframe (regs + b)) (Fs : inframe (start - 3)).
  Context (Haddr : forall g, 0 <= addr g < two64) (HM : memory X data room (addr F_ref)).
  Record rel (s : vars) (w : W) (M : Z -> Z) (ps : list (Z * Z)) (cs : list Z) : Prop := mkRel {
    r_nd : NoDup cs;
    r_cells : Forall2 (fun c d => cell X data w c d) cs (cells s);
    r_own : match own s with Shared id => nth_error cs id = Some (M V) | Alone v => M V = v /\ plain X data w v end;
    r_clos : Forall2 (fun pi id => fst pi mod 8 = 0 /\ 0 <= fst pi < two64 - 65536 /\ 0 <= snd pi < 4096 /\ data (word pi) = true /\
      exists c, nth_error cs id = Some c /\ xh_load X w (word pi) = Ok c) ps (clos s);
    r_sep : forall pi c, In pi ps -> In c cs -> word pi <> c + 8 }.
  Lemma word8 pi : fst pi mod 8 = 0 -> word pi mod 8 = 0.
  Proof. unfold word, up_off. lia. Qed.
  Lemma cell_keep w w0 c d : xh_load X w0 c = xh_load X w c -> xh_load X w0 (c + 8) = xh_load X w (c + 8) -> cell X data w c d -> cell X data w0 c d.
  Proof. intros E1 E2 (C1 & C2 & C3 & t & C4 & C5 & C6 & C7). rewrite <- E1 in C4. rewrite <- E2 in C6. repeat (split; [assumption|]). exists t. auto. Qed.
  Lemma F2_imp A C (P Q : A -> C -> Prop) l k : Forall2 P l k -> (forall x y, In x l -> P x y -> Q x y) -> Forall2 Q l k.
  Proof. induction 1; intros H1; constructor; [apply H1; [left; reflexivity|assumption]|]. apply IHForall2. intros x0 y0 I0. apply H1. right; exact I0. Qed.
  Lemma F2_nth A C (P : A -> C -> Prop) l k : Forall2 P l k -> forall i x, nth_error l i = Some x -> exists y, nth_error k i = Some y /\ P x y.
  Proof. induction 1; intros [|i] x0; cbn; try discriminate; [intros [= <-]; eauto|apply IHForall2]. Qed.
  Lemma F2_nth' A C (P : A -> C -> Prop) l k : Forall2 P l k -> forall i y, nth_error k i = Some y -> exists x, nth_error l i = Some x /\ P x y.
  Proof. induction 1; intros [|i] x0; cbn; try discriminate; [intros [= <-]; eauto|apply IHForall2]. Qed.
  Lemma quiet_rel s w M ps cs w0 M0 : rel s w M ps cs -> quiet w M ps cs w0 M0 -> rel s w0 M0 ps cs.
  Proof.
    intros [R1 R2 R3 R4 R5] (Q1 & Q2 & Q3 & Q4). split; try assumption.
    - eapply F2_imp; [exact R2|]. intros c d Ic. destruct (Q4 c Ic). apply cell_keep; assumption.
    - rewrite Q1. destruct (own s); [exact R3|]. destruct R3 as [<- R3]. auto.
    - eapply F2_imp; [exact R4|]. intros pi id Ip. cbn beta. rewrite (Q3 pi Ip). auto.
  Qed.
  Lemma plain_store w a v w' u : data a = true -> (forall x, x mod 8 = 0 -> xh_load X w' x = if x =? a then Ok v else xh_load X w x) -> plain X data w u -> plain X data w' u.
  Proof.
    intros D L [P|[P|(t & P1 & P2 & P3 & P4)]]; [left; exact P|right; left; exact P|]. right; right. exists t.
    rewrite L by exact P3. replace (u =? a) with false; [auto|]. symmetry. apply Z.eqb_neq. congruence.
  Qed.
  Lemma put_F2 (P Q : Z -> Z -> Prop) v : forall cs ds id c, NoDup cs -> Forall2 P cs ds -> nth_error cs id = Some c ->
    (forall c' d, In c' cs -> c' <> c -> P c' d -> Q c' d) -> (forall d, P c d -> Q c v) -> Forall2 Q cs (put ds id v).
  Proof.
    induction cs as [|c0 cs IH]; intros ds id c ND F N H1 H2; inversion F as [|c1 d1 cs1 ds1 F1 F2 E1 E2]; subst; [destruct id; discriminate N|]. apply NoDup_cons_iff in ND as [N1 N2].
    destruct id; cbn in N |- *.
    - injection N as <-. constructor; [eauto|]. eapply F2_imp; [exact F2|]. intros x y0 Ix. apply H1; [right; exact Ix|congruence].
    - apply nth_error_In in N as NI. constructor; [apply H1; [left; reflexivity|congruence|assumption]|]. eapply IH; eauto. intros c' d Ic. apply H1. right; exact Ic.
  Qed.
  (** an assignment to a cell *)
  Lemma assign s w M ps cs id c v : rel s w M ps cs -> nth_error cs id = Some c ->
    exists w', xh_store X w (c + 8) v = Ok w' /\ (forall M' pl, (match pl with Shared id => nth_error cs id = Some (M' V) | Alone v => M' V = v /\ plain X data w v end) ->
      rel (mkVars pl (put (cells s) id v) (clos s)) w' M' ps cs).
  Proof.
    intros [R1 R2 R3 R4 R5] N. destruct (F2_nth _ _ _ _ _ R2 _ _ N) as (d & D1 & C1 & C2 & C3 & t & C4 & C5 & C6 & C7 & C8).
    destruct (m_store _ _ _ _ HM w (c + 8) v d ltac:(lia) C8 C6) as (w' & S1 & S2). exists w'. split; [exact S1|]. intros M' pl Hpl. split; cbn [own cells clos]; try assumption.
    - eapply put_F2; [exact R1|exact R2|exact N| |].
      + intros c' d' Ic' Nc (K1 & K2 & K3 & t' & K4 & K5 & K6 & K7 & K8). repeat (split; [assumption|]). exists t'. rewrite !S2 by lia.
        replace (c' =? c + 8) with false by (symmetry; apply Z.eqb_neq; congruence). replace (c' + 8 =? c + 8) with false by lia. auto.
      + intros d' _. repeat (split; [assumption|]). exists t. rewrite !S2 by lia. rewrite Z.eqb_refl. replace (c =? c + 8) with false by lia. auto.
    - destruct pl; [exact Hpl|]. destruct Hpl as [Hp1 Hp2]. split; [exact Hp1|]. eapply plain_store; [exact C8|exact S2|exact Hp2].
    - eapply F2_imp; [exact R4|]. intros pi id' Ip (K1 & K2 & K3 & K4 & c' & K5 & K6). repeat (split; [assumption|]). exists c'. split; [exact K5|].
      rewrite S2 by (apply word8; exact K1). replace (word pi =? c + 8) with false; [exact K6|]. symmetry. apply Z.eqb_neq. apply R5; [exact Ip|]. eapply nth_error_In; exact N.
  Qed.
  Lemma inner_run w p i B2 Sp2 lregs2 start2 upc a2 M2 c : inner w p i B2 Sp2 lregs2 start2 upc a2 M2 -> 0 <= p < two64 - 65536 -> xh_load X w (p + up_off i) = Ok c ->
    exists M', runs X S0 B2 Sp2 (x86_upvals lregs2 start2 upc) w M2 w M' /\ M' (B2 + slot (lregs2 + i)) = c /\ M' (B2 + slot a2) = M2 (B2 + slot a2) /\
      JitProofs.inframe B2 Sp2 (lregs2 + i).
  Proof.
    intros [I1 I2 I3 I4 I5 I6 I7 I8 I9 I10] Hp L.
    destruct (upvals_ok X data S0 B2 Sp2 I1 lregs2 start2 w p (Z.to_nat upc) 0 M2) as (M' & Q1 & Q2 & Q3); try assumption; try lia.
    { intros j Hj. apply I9. lia. }
    exists M'. split; [exact Q1|]. split; [|split; [apply Q3; lia|apply I9; lia]]. specialize (Q2 i ltac:(lia)). congruence.
  Qed.
  Lemma NoDup_snoc (l : list Z) x : NoDup l -> ~ In x l -> NoDup (l ++ [x]).
  Proof.
    induction 1 as [|y l N ND IH]; intros H; cbn; [repeat constructor; auto|]. constructor; [|apply IH; intros Q; apply H; right; exact Q].
    intros Q. apply in_app_or in Q as [Q|[Q|[]]]; [auto|]. apply H. left. congruence.
  Qed.
  Lemma setm_eq M a v : setm M a v a = v. Proof. unfold setm. rewrite Z.eqb_refl. reflexivity. Qed.
  Lemma setm_slot M r q v : r <> q -> setm M (B + slot r) v (B + slot q) = M (B + slot q).
  Proof. intros N. unfold setm. destruct (_ =? _) eqn:E; [apply Z.eqb_eq in E; unfold slot in E; lia|reflexivity]. Qed.
  Lemma own_keep s w M M' ps cs : M' V = M V -> rel s w M ps cs -> rel s w M' ps cs.
  Proof. intros E [R1 R2 R3 R4 R5]. split; try assumption. rewrite E. exact R3. Qed.

  Lemma history : forall h s out w M ps cs, rel s w M ps cs -> answers s h = Some out -> follows h out w M ps cs.
  Proof.
    induction h as [|e h IH]; intros s out w M ps cs R A; [injection A as <-; reflexivity|].
    cbn [follows]. intros w0 M0 Q. apply (quiet_rel _ _ _ _ _ _ _ R) in Q. clear R w M. rename Q into R. cbn [answers] in A. destruct e as [| |v|k|k v].
    - (* Capture *)
      intros a p i t Rm Fa Nab E P8 Hp Hi D L N1 N2. cbn [happens] in A. pose proof R as [R1 R2 R3 R4 R5]. destruct (own s) as [id|v] eqn:O.
      + (* the variable is with a cell *)
        destruct (F2_nth _ _ _ _ _ R2 _ _ R3) as (d & D1 & C).
        destruct (m_store _ _ _ _ HM w0 (p + up_off i) (M0 V) t ltac:(unfold up_off; lia) D L) as (w' & S1 & S2).
        exists w', (setm M0 V (M0 V)), cs. split.
        { apply (bind_ok X data S0 B Sp HB HA16 addr Haddr regs start a b i w0 M0 w0 (M0 V) w'); try assumption.
          - rewrite E. exact Hp.
          - intros L0. apply (m_old _ _ _ _ HM w0 _ _ d). exact C.
          - rewrite E. exact S1. }
        eapply IH; [|exact A]. split; cbn [own cells clos]; try assumption.
        * eapply F2_imp; [exact R2|]. intros c0 d0 Ic (C1 & C2 & C3 & t' & C4 & C5 & C6 & C7 & C8).
          repeat (split; [assumption|]). exists t'. rewrite !S2 by lia.
          replace (c0 =? p + up_off i) with false by (symmetry; apply Z.eqb_neq; congruence).
          replace (c0 + 8 =? p + up_off i) with false; [auto|]. symmetry. apply Z.eqb_neq. intros E1. apply N2. rewrite <- E1, Z.add_comm. apply in_map. exact Ic.
        * rewrite setm_eq. exact R3.
        * apply Forall2_app.
          { eapply F2_imp; [exact R4|]. intros pi id' Ip (K1 & K2 & K3 & K4 & c' & K5 & K6). repeat (split; [assumption|]). exists c'. split; [exact K5|].
            rewrite S2 by (apply word8; exact K1). replace (word pi =? _) with false; [exact K6|]. symmetry. apply Z.eqb_neq. intros E1. apply N1. rewrite <- E1. apply in_map. exact Ip. }
          constructor; [|constructor]. cbn [fst snd]. repeat (split; [assumption||apply Hp||apply Hi|]). exists (M0 V). split; [exact R3|].
          unfold word. cbn [fst snd]. rewrite S2 by (unfold up_off; lia). rewrite Z.eqb_refl. reflexivity.
        * intros pi c Ip Ic. apply in_app_or in Ip as [Ip|[<-|[]]]; [auto|]. unfold word. cbn [fst snd]. intros E1. apply N2. rewrite E1, Z.add_comm. apply in_map. exact Ic.
      + (* it has a value of its own *)
        destruct R3 as [R3 Pl]. destruct (m_new _ _ _ _ HM w0 v Rm Pl) as (w1 & c & K1 & K2 & K3 & K4 & K5).
        assert (Kw : p + up_off i <> c /\ p + up_off i <> c + 8) by (split; intros E1; rewrite E1 in L; congruence).
        assert (L1 : xh_load X w1 (p + up_off i) = Ok t) by (rewrite K5; [exact L|unfold up_off; lia|apply Kw|apply Kw]).
        destruct (m_store _ _ _ _ HM w1 (p + up_off i) c t ltac:(unfold up_off; lia) D L1) as (w' & S1 & S2).
        assert (Lc : length cs = length (cells s)) by (clear - R2; induction R2; cbn; congruence).
        exists w', (setm M0 V c), (cs ++ [c]). split.
        { apply (bind_ok X data S0 B Sp HB HA16 addr Haddr regs start a b i w0 M0 w1 c w'); try assumption.
          - rewrite E. exact Hp.
          - intros L0. rewrite R3. apply K1.
          - rewrite E. exact S1. }
        assert (Nc : ~ In c cs).
        { intros Ic. apply In_nth_error in Ic as [j Hj]. destruct (F2_nth _ _ _ _ _ R2 _ _ Hj) as (d0 & _ & C1 & C2 & C3 & t' & C4 & _). congruence. }
        eapply IH; [|exact A]. split; cbn [own cells clos].
        * apply NoDup_snoc; assumption.
        * apply Forall2_app.
          { eapply F2_imp; [exact R2|]. intros c0 d0 Ic (C1 & C2 & C3 & t' & C4 & C5 & C6 & C7 & C8).
            assert (c0 <> c + 8) by (intros ->; congruence). assert (c0 <> c) by (intros ->; congruence). assert (c0 + 8 <> c) by (intros E1; rewrite E1 in C6; congruence).
            repeat (split; [assumption|]). exists t'. rewrite !S2 by lia.
            replace (c0 =? p + up_off i) with false by (symmetry; apply Z.eqb_neq; congruence).
            replace (c0 + 8 =? p + up_off i) with false; [rewrite !K5 by lia; auto|]. symmetry. apply Z.eqb_neq. intros E1. apply N2. rewrite <- E1, Z.add_comm. apply in_map. exact Ic. }
          constructor; [|constructor]. destruct K2 as (C1 & C2 & C3 & t' & C4 & C5 & C6 & C7 & C8). repeat (split; [assumption|]). exists t'. rewrite !S2 by lia.
          replace (c =? p + up_off i) with false by lia. replace (c + 8 =? p + up_off i) with false by lia. auto.
        * rewrite setm_eq, <- Lc. rewrite nth_error_app2, Nat.sub_diag by lia. reflexivity.
        * apply Forall2_app.
          { eapply F2_imp; [exact R4|]. intros pi id' Ip (W1 & W2 & W3 & W4 & c' & W5 & W6). repeat (split; [assumption|]). exists c'. split.
            { rewrite nth_error_app1; [exact W5|]. apply nth_error_Some. congruence. }
            rewrite S2 by (apply word8; exact W1). replace (word pi =? _) with false by (symmetry; apply Z.eqb_neq; intros E1; apply N1; rewrite <- E1; apply in_map; exact Ip).
            rewrite K5; [exact W6|apply word8; exact W1| |]; intros E1; rewrite E1 in W6; congruence. }
          constructor; [|constructor]. cbn [fst snd]. repeat (split; [assumption||apply Hp||apply Hi|]). exists c. split.
          { rewrite <- Lc. rewrite nth_error_app2, Nat.sub_diag by lia. reflexivity. }
          unfold word. cbn [fst snd]. rewrite S2 by (unfold up_off; lia). rewrite Z.eqb_refl. reflexivity.
        * intros pi c0 Ip Ic. apply in_app_or in Ip as [Ip|[<-|[]]]; apply in_app_or in Ic as [Ic|[<-|[]]].
          -- auto.
          -- destruct (In_nth_error _ _ Ip) as [j Hj]. destruct (F2_nth _ _ _ _ _ R4 _ _ Hj) as (id' & _ & _ & _ & _ & _ & c' & _ & W6). intros E1. rewrite E1 in W6. congruence.
          -- unfold word. cbn [fst snd]. intros E1. apply N2. rewrite E1, Z.add_comm. apply in_map. exact Ic.
          -- unfold word. cbn [fst snd]. lia.
    - (* OwnerGet *)
      intros a Fa Nab. cbn [happens] in A. pose proof R as [R1 R2 R3 R4 R5]. destruct (own s) as [id|v] eqn:O.
      + destruct (F2_nth _ _ _ _ _ R2 _ _ R3) as (d & D1 & C). rewrite D1 in A. destruct (answers s h) as [out'|] eqn:A'; [|discriminate A]. injection A as <-.
        exists (setm M0 (B + slot a) d), d, out'. split; [reflexivity|]. split; [apply (getlocal_ref X data S0 B Sp HB); assumption|]. split; [apply setm_eq|].
        eapply IH; [|exact A']. eapply own_keep; [|exact R]. apply setm_slot. exact Nab.
      + destruct R3 as [R3 Pl]. destruct (answers s h) as [out'|] eqn:A'; [|discriminate A]. injection A as <-.
        exists (setm M0 (B + slot a) v), v, out'. split; [reflexivity|]. split; [rewrite <- R3; apply (getlocal_plain X data S0 B Sp HB); try assumption; rewrite R3; exact Pl|]. split; [apply setm_eq|].
        eapply IH; [|exact A']. eapply own_keep; [|exact R]. apply setm_slot. exact Nab.
    - (* OwnerSet *)
      intros a Fa E Pv. cbn [happens] in A. pose proof R as [R1 R2 R3 R4 R5]. destruct (own s) as [id|v0] eqn:O.
      + destruct (F2_nth _ _ _ _ _ R2 _ _ R3) as (d & D1 & C). destruct (assign s w0 M0 ps cs id _ v R R3) as (w' & S1 & S2).
        exists w', (setm M0 V v). split; [rewrite <- E; eapply (setlocal_ref X data S0 B Sp HB); try eassumption; rewrite E; exact S1|].
        eapply IH; [|exact A]. apply S2. split; [apply setm_eq|exact Pv].
      + destruct R3 as [R3 Pl]. exists w0, (setm M0 V v). split; [rewrite <- E; apply (setlocal_plain X data S0 B Sp HB); try assumption; rewrite R3; exact Pl|].
        eapply IH; [|exact A]. split; cbn [own cells clos]; try assumption. split; [apply setm_eq|exact Pv].
    - (* ClosGet *)
      cbn [happens] in A. pose proof R as [R1 R2 R3 R4 R5]. destruct (nth_error (clos s) k) as [id|] eqn:N; [|discriminate A].
      destruct (F2_nth' _ _ _ _ _ R4 _ _ N) as ([p i] & N' & K1 & K2 & K3 & K4 & c & K5 & K6). cbn [fst snd] in *.
      destruct (F2_nth _ _ _ _ _ R2 _ _ K5) as (d & D1 & C). rewrite D1 in A. destruct (answers s h) as [out'|] eqn:A'; [|discriminate A]. injection A as <-.
      exists p, i. split; [exact N'|]. intros B2 Sp2 lregs2 start2 upc a2 M2 Hin.
      destruct (inner_run _ _ _ _ _ _ _ _ _ _ _ Hin K2 K6) as (M' & Y1 & Y2 & Y3 & Y4).
      exists (setm M' (B2 + slot a2) d), d, out'. split; [reflexivity|]. split; [|split; [apply setm_eq|eapply IH; eassumption]].
      eapply runs_app; [exact Y1|]. apply (getupval_ok X data S0 B2 Sp2 (in_B _ _ _ _ _ _ _ _ _ _ Hin)); [exact Y4|exact (in_a _ _ _ _ _ _ _ _ _ _ Hin)|rewrite Y2; exact C].
    - (* ClosSet *)
      cbn [happens] in A. pose proof R as [R1 R2 R3 R4 R5]. destruct (nth_error (clos s) k) as [id|] eqn:N; [|discriminate A].
      destruct (F2_nth' _ _ _ _ _ R4 _ _ N) as ([p i] & N' & K1 & K2 & K3 & K4 & c & K5 & K6). cbn [fst snd] in *.
      destruct (F2_nth _ _ _ _ _ R2 _ _ K5) as (d & D1 & C). destruct (assign s w0 M0 ps cs id _ v R K5) as (w' & S1 & S2).
      exists p, i. split; [exact N'|]. intros B2 Sp2 lregs2 start2 upc a2 M2 Hin E.
      destruct (inner_run _ _ _ _ _ _ _ _ _ _ _ Hin K2 K6) as (M' & Y1 & Y2 & Y3 & Y4).
      exists w', M'. split; [|eapply IH; [apply S2|exact A]; destruct (own s) eqn:O; exact R3].
      eapply runs_app; [exact Y1|]. apply (setupval_ok X data S0 B2 Sp2 (in_B _ _ _ _ _ _ _ _ _ _ Hin)) with (d := d); [exact Y4|exact (in_a _ _ _ _ _ _ _ _ _ _ Hin)|rewrite Y2; exact C|].
      rewrite Y2, Y3, E. exact S1.
  Qed.
End Hist.

(** ** Theorems *)
(** no assignment by the function itself after a closure has captured the variable *)
Fixpoint tame (captured : bool) (h : list ev) : bool :=
  match h with
  | [] => true
  | Capture :: h => tame true h
  | OwnerSet _ :: h => negb captured && tame captured h
  | _ :: h => tame captured h
  end.
(** Such histories answer as one variable would. *)
Theorem C77_one_variable : forall v h, tame false h = true -> answers (mkVars (Alone v) [] []) h = one_variable v 0 h.
Proof.
  assert (G1 : forall h v n, tame true h = true -> answers (mkVars (Shared 0) [v] (repeat 0%nat n)) h = one_variable v n h).
  { induction h as [|e h IH]; intros v n T; [reflexivity|]. cbn [answers]. destruct e as [| |u|k|k u]; cbn [happens own cells clos tame one_variable nth_error put] in *.
    - rewrite <- (IH v (S n) T). f_equal. f_equal. clear. induction n; cbn; [reflexivity|]. f_equal. exact IHn.
    - rewrite IH by exact T. reflexivity.
    - discriminate T.
    - destruct (Nat.ltb_spec k n) as [L|L].
      + rewrite nth_error_repeat by exact L. cbn [nth_error]. rewrite IH by exact T. reflexivity.
      + replace (nth_error (repeat 0%nat n) k) with (@None nat); [reflexivity|]. symmetry. apply nth_error_None. rewrite repeat_length. exact L.
    - destruct (Nat.ltb_spec k n) as [L|L].
      + rewrite nth_error_repeat by exact L. cbn [nth_error put]. rewrite IH by exact T. reflexivity.
      + replace (nth_error (repeat 0%nat n) k) with (@None nat); [reflexivity|]. symmetry. apply nth_error_None. rewrite repeat_length. exact L. }
  intros v h. revert v. induction h as [|e h IH]; intros v T; [reflexivity|]. cbn [answers]. destruct e as [| |u|k|k u]; cbn [happens own cells clos tame one_variable nth_error put negb andb length app] in *.
  - exact (G1 h v 1%nat T).
  - rewrite IH by exact T. reflexivity.
  - apply IH. exact T.
  - destruct k; reflexivity.
  - destruct k; reflexivity.
Qed.

(** For every history of one local variable of a function: captures by closures, reads and assignments by
    the function, reads and assignments by the closures, in any order and with other code in between that
    leaves the variable alone: the machine code emitted for each of them runs to its end, and the reads
    answer what [answers] says. *)
Theorem C77_history : forall W (X : xhost W) data room S0 addr B Sp regs start b,
  B mod 8 = 0 -> Sp mod 16 = 0 -> inframe B Sp (regs + b) -> inframe B Sp (start - 3) ->
  (forall g, 0 <= addr g < two64) -> memory X data room (addr F_ref) ->
  forall h out w M v, M (B + slot (regs + b)) = v -> plain X data w v ->
  answers (mkVars (Alone v) [] []) h = Some out -> follows X data room S0 addr B Sp regs start b h out w M [] [].
Proof.
  intros W X data room S0 addr B Sp regs start b HB HA Fb Fs Ha HM h out w M v E P A.
  eapply history; try eassumption. split; cbn [own cells clos]; [constructor|constructor|auto|constructor|intros ? ? []].
Qed.

(** When the function does not assign after the first capture, the machine code answers as one variable. *)
Theorem C77_shared : forall W (X : xhost W) data room S0 addr B Sp regs start b,
  B mod 8 = 0 -> Sp mod 16 = 0 -> inframe B Sp (regs + b) -> inframe B Sp (start - 3) ->
  (forall g, 0 <= addr g < two64) -> memory X data room (addr F_ref) ->
  forall h out w M v, M (B + slot (regs + b)) = v -> plain X data w v -> tame false h = true ->
  one_variable v 0 h = Some out -> follows X data room S0 addr B Sp regs start b h out w M [] [].
Proof. intros. eapply C77_history; try eassumption. rewrite C77_one_variable by assumption. assumption. Qed.

(** Otherwise it does not: after an assignment by the function, the function and the closure have
    different variables.  (A closure made later captures the function's new one.) *)
Theorem C77_separates_refuted :
  (one_variable 0 0 [Capture; OwnerSet 1; OwnerSet 2; ClosGet 0] = Some [2] /\ answers (mkVars (Alone 0) [] []) [Capture; OwnerSet 1; OwnerSet 2; ClosGet 0] = Some [1]) /\
  (one_variable 0 0 [Capture; OwnerSet 1; ClosSet 0 2; OwnerGet] = Some [2] /\ answers (mkVars (Alone 0) [] []) [Capture; OwnerSet 1; ClosSet 0 2; OwnerGet] = Some [1]) /\
  (one_variable 0 0 [Capture; OwnerSet 1; Capture; ClosSet 1 2; ClosGet 0] = Some [2] /\ answers (mkVars (Alone 0) [] []) [Capture; OwnerSet 1; Capture; ClosSet 1 2; ClosGet 0] = Some [1]).
Proof. repeat split. Qed.

(** Where the captured variables lie: a closure is a record of its type, hash, function, signature, two
    counts, a size and its name (potion.h 381-390: 4, 4, 8, 8, 4, 4, 4 and 8 bytes, each aligned to its size),
    then words.  The first is the function's code; the variables follow in order, so that neither a
    closure's record nor its code is read or overwritten as a variable, and no two variables share a word. *)
Fixpoint layout (at_ : Z) (sizes : list Z) : Z :=
  match sizes with [] => at_ | s :: l => layout ((at_ + s - 1) / s * s + s) l end.
Definition closure_words : Z := layout 0 [4; 4; 8; 8; 4; 4; 4; 8].
Theorem C77_captured_words : forall p i, word (p, i) = p + closure_words + 8 * (i + 1) /\
  (forall j, word (p, i) = word (p, j) -> i = j) /\ (0 <= i -> p + closure_words + 8 <= word (p, i)).
Proof. intros p i. unfold word, up_off. change closure_words with 48. cbn [fst snd]. repeat split; lia. Qed.

(** The first assignment after a capture still reaches the closures. *)
Theorem C77_first_assignment : forall v u n, 
  answers (mkVars (Alone v) [] []) (repeat Capture (S n) ++ [OwnerSet u] ++ map ClosGet (seq 0 (S n)) ++ [OwnerGet]) = Some (repeat u (S n) ++ [u]).
Proof.
  assert (G3 : forall cs l t u, (forall k, In k l -> (k < cs)%nat) -> answers (mkVars (Alone t) [u] (repeat 0%nat cs)) (map ClosGet l ++ [OwnerGet]) = Some (repeat u (length l) ++ [t])).
  { induction l as [|k l IH]; intros t u H; [reflexivity|]. cbn [map app answers happens clos cells own].
    rewrite nth_error_repeat by (apply H; left; reflexivity). cbn [nth_error]. rewrite IH by (intros; apply H; right; assumption). reflexivity. }
  assert (G2 : forall n m v u h, answers (mkVars (Shared 0) [v] (repeat 0%nat m)) (repeat Capture n ++ OwnerSet u :: h) = answers (mkVars (Alone u) [u] (repeat 0%nat (n + m))) h).
  { induction n as [|n IH]; intros m v u h; [reflexivity|]. cbn [repeat app answers happens own cells clos].
    replace (repeat 0%nat m ++ [0%nat]) with (repeat 0%nat (S m)) by (clear; induction m; cbn; [reflexivity|]; f_equal; exact IHm).
    rewrite IH. f_equal. f_equal. f_equal. lia. }
  intros v u n. cbn [repeat app answers happens own cells clos length]. change [0%nat] with (repeat 0%nat 1).
  rewrite G2. rewrite G3; [rewrite seq_length; reflexivity|]. intros k Hk. apply in_seq in Hk. lia.
Qed.

(** *** A memory with these properties *)
Definition exW : Type := (Z * (Z -> res Z))%type.   (* the next free address, the words *)
Definition ex_data (a : Z) : bool := a mod 16 =? 8.
Definition ex_set (m : Z -> res Z) (a v : Z) : Z -> res Z := fun b => if b =? a then Ok v else m b.
Definition ex_cell (w : exW) (v : Z) : bool :=
  (v mod 8 =? 0) && negb (Z.land (u32 v) (two32 - 8) =? 0) && match snd w v with Ok t => t mod two32 =? PN_TWEAK | _ => false end.
Definition ex_call (w : exW) (f : Z) (l : list Z) : res (exW * Z) :=
  match l with
  | _ :: v :: _ => if ex_cell w v then Ok (w, v) else Ok ((fst w + 16, ex_set (ex_set (snd w) (fst w) PN_TWEAK) (fst w + 8) v), fst w)
  | _ => UB
  end.
Definition ex_room (w : exW) : Prop := fst w mod 16 = 0 /\ 0 < fst w < 1073741824 /\ snd w (fst w) = UB /\ snd w (fst w + 8) = UB.
Definition ex_XU : xhost exW := mkXH _ ex_call (fun w a => snd w a) (fun w a v => match snd w a with Ok _ => Ok (fst w, ex_set (snd w) a v) | _ => UB end)
  (fun _ _ _ => false) (fun _ _ => 0) (fun _ => mkF false false false) (fun _ _ => 0).
Theorem C77_memory_met : memory ex_XU ex_data ex_room 0.
Proof.
  split.
  - intros [n m] a v t A D L. cbn in L |- *. rewrite L. eexists. split; [reflexivity|]. intros b _. reflexivity.
  - intros [n m] v (R1 & R2 & R3 & R4) P. cbn [fst snd] in *.
    assert (E : ex_cell (n, m) v = false).
    { unfold ex_cell. cbn [snd]. destruct P as [P|[P|(t & P1 & P2 & P3 & P4)]].
      - destruct (v mod 8 =? 0) eqn:E; [|reflexivity]. apply Z.eqb_eq in E. rewrite (even8 v E) in P. discriminate P.
      - rewrite P. cbn. rewrite andb_false_r. reflexivity.
      - cbn in P1. rewrite P1. apply Z.eqb_neq in P2. rewrite P2. rewrite andb_false_r. reflexivity. }
    eexists _, n. split; [intros p L; cbn [xh_call ex_XU ex_call]; rewrite E; reflexivity|]. cbn [fst snd]. split; [|split; [exact R3|split; [exact R4|]]].
    + unfold cell, two64, two32, ex_data. repeat (split; [lia|]). exists PN_TWEAK. cbn [xh_load ex_XU snd]. unfold ex_set.
      rewrite !Z.eqb_refl. replace (n =? n + 8) with false by lia. repeat split; lia.
    + intros b B8 N1 N2. cbn [xh_load ex_XU snd]. unfold ex_set. replace (b =? n + 8) with false by lia. replace (b =? n) with false by lia. reflexivity.
  - intros w p v d L (C1 & C2 & C3 & t & C4 & C5 & _). cbn [xh_call ex_XU ex_call]. replace (ex_cell w v) with true; [reflexivity|].
    symmetry. unfold ex_cell. cbn in C4. rewrite C4. pose proof (mask8 v C1 C3) as M8. apply Z.eqb_eq in C1. rewrite C1. apply Z.eqb_neq in M8. rewrite M8. cbn [negb andb]. apply Z.eqb_eq. exact C5.
Qed.
(** two closures at 1024 and 2048 share the variable with value 7 of a function *)
Definition ex_w : exW := (4096, fun a => if (a =? 1080) || (a =? 2104) then Ok 0 else UB).
Theorem C77_example :
  let h := [OwnerSet 15; OwnerGet; Capture; ClosGet 0; ClosSet 0 17; OwnerGet; Capture; ClosSet 1 19; ClosGet 0; OwnerGet] in
  tame false h = true /\ one_variable 7 0 h = Some [15; 15; 17; 19; 19] /\
  follows ex_XU ex_data ex_room 0 (fun _ => 0) 65536 65280 4 10 1 h [15; 15; 17; 19; 19] ex_w (fun _ => 7) [] [] /\
  ex_room ex_w /\ quiet ex_XU ex_data 65536 4 1 ex_w (fun _ => 7) [] [] ex_w (fun _ => 7).
Proof.
  cbv zeta. split; [reflexivity|]. split; [reflexivity|]. split; [|split].
  - eapply C77_shared with (v := 7); try reflexivity; try (split; [lia|unfold slot; lia]); try exact C77_memory_met; [intros; unfold two64; lia|left; reflexivity].
  - unfold ex_room, ex_w. cbn [fst snd]. repeat split; lia.
  - repeat split; auto.
Qed.
