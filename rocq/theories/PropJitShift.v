(** Property C76: shifts in machine code. *)
From Coq Require Import ZifyBool.
From Verif Require Import Base Arr GArr WordModel WordProofs AsmModel ObjModel PropIvf NumModel NumProofs CompileModel X86Model JitModel JitProofs JitSem JitArith JitUpModel.
Ltac Zify.zify_post_hook ::= Z.div_mod_to_equations.

(** ** Specification *)
(** What the inline code makes of the integers x and y: the shift of the low 31 bits of x, as a
    signed number, by the low 5 bits of y, of which the low 31 bits are kept, unsigned. *)
Definition inline_shift (right : bool) (x y : Z) : Z :=
  (if right then low31 x / 2 ^ (y mod 32) else low31 x * 2 ^ (y mod 32)) mod 2147483648.
Definition true_shift (right : bool) (x y : Z) : Z := if right then x / 2 ^ y else x * 2 ^ y.
(** the code at [bytes], run from world w and frame M, ends behind itself with w' and M' *)
Definition runs {W} (X : xhost W) (S0 B Sp : Z) (bytes : list Z) (w : W) (M : Z -> Z) (w' : W) (M' : Z -> Z) : Prop :=
  forall code pc s, at_ code pc bytes -> G B Sp pc w M s ->
  exists s', xs X code S0 s s' /\ G B Sp (pc + zlen bytes) w' M' s'.

Section Shift.
  Context {W : Type} (X : xhost W) (code : list Z) (S0 : Z).
  Notation xs := (xs X code S0).
  Ltac go1 := cbn [exec x_r x_m x_f x_w x_pc]; reflexivity.
  Ltac stp bs i A := eapply (step1 X code S0 bs i); [exact A|intros ?; reflexivity|go1|]; clear A; intros A;
    match type of A with JitProofs.at_ _ (_ + zlen ?l) _ =>
      let n := eval vm_compute in (zlen l) in change (zlen l) with n in * end.
  (** the overflow flag after the shift *)
  Definition flag_of (right : bool) (w : W) (x y : Z) : bool :=
    let c := y mod 32 in
    if c =? 0 then false
    else if c =? 1 then negb right && ((low31 x * 2 <? -2147483648) || (2147483647 <? low31 x * 2))
    else xh_of X w (u32 (low31 x)) c.
  Lemma jcc_o rest pc R f m w (P : xst W -> Prop) : at_ code pc ([112; 6] ++ rest) ->
    (at_ code (pc + 2) rest -> exists s', xs (mkX (if f_o f then pc + 2 + 6 else pc + 2) R f m w) s' /\ P s') ->
    exists s', xs (mkX pc R f m w) s' /\ P s'.
  Proof. intros A K. eapply (step1 X code S0 [112; 6] (XJcc CO 6)); [exact A|intros ?; reflexivity|go1|exact K]. Qed.
  Lemma mod32 j : u32 (u32 (low31 j)) mod 32 = j mod 32.
  Proof. unfold low31, u32, two32. lia. Qed.
  Lemma ops_shift w right x y :
    opsok X code S0 w (shift_ops right) (PN_NUM x) (PN_NUM y)
      (if flag_of right w x y then None else Some (PN_NUM (inline_shift right x y))).
  Proof.
    intros pc R f m rest A Ea Ed Ef.
    change (shift_ops right ++ rest) with ([209; 248] ++ [209; 250] ++ [137; 209] ++ [137; 194] ++ [211; if right then 248 else 224] ++ [112; 6] ++ [141; 68; 0; 1] ++ rest) in A.
    stp [209; 248] (XSar32 RAX) A. stp [209; 250] (XSar32 RDX) A. stp [137; 209] (XMov32 RCX RDX) A. stp [137; 194] (XMov32 RDX RAX) A.
    match goal with |- context [mkX ?pc ?r ?f m w] => set (R5 := r); set (f5 := f) end.
    assert (V1 : R5 RAX = u32 (low31 x)) by (subst R5; unfold setr; cbn [reg_eqb]; rewrite Ea, s32_NUM; reflexivity).
    assert (V3 : R5 RCX = u32 (u32 (low31 y))).
    { subst R5. unfold setr. cbn [reg_eqb]. rewrite Ed, s32_NUM. reflexivity. }
    assert (V4 : R5 RBP = R RBP) by reflexivity. assert (V5 : R5 RSP = R RSP) by reflexivity.
    assert (V6 : f_o f5 = false) by reflexivity. clearbody R5 f5.
    pose proof (low31_range x) as Rx.
    assert (C : 0 <= y mod 32 < 32) by lia. set (c := y mod 32) in *.
    assert (Sx : s32 (u32 (low31 x)) = low31 x) by (apply s32_u32; lia).
    (* the shift *)
    assert (V : exists f6 r, f_o f6 = flag_of right w x y /\ u32 (r + r + 1) = PN_NUM (inline_shift right x y) /\
      exec X S0 (if right then XSarC else XShlC) 2 (mkX (pc + 2 + 2 + 2 + 2) R5 f5 m w) =
        Ok (XRun (mkX (pc + 2 + 2 + 2 + 2 + 2) (setr R5 RAX r) f6 m w))).
    { assert (K : forall z, u32 (u32 z + u32 z + 1) = PN_NUM (z mod 2147483648)).
      { intros z. rewrite PN_NUM_eq. unfold u32, two32, two64. lia. }
      unfold flag_of, inline_shift. fold c. destruct right; cbn [exec x_r x_m x_f x_w x_pc]; rewrite V3, mod32, V1; fold c.
      - rewrite Sx. destruct (c =? 0) eqn:C0.
        + exists f5, (u32 (u32 (low31 x))). split; [exact V6|]. split; [|reflexivity].
          replace c with 0 by lia. rewrite u32_u32, K. change (2 ^ 0) with 1. rewrite Z.div_1_r. reflexivity.
        + eexists _, (u32 (low31 x / 2 ^ c)). split; [|split; [|reflexivity]]; [cbn [f_o negb andb]; destruct (c =? 1); reflexivity | apply K].
      - destruct (c =? 0) eqn:C0.
        + exists f5, (u32 (u32 (low31 x))). split; [exact V6|]. split; [|reflexivity].
          replace c with 0 by lia. rewrite u32_u32, K. change (2 ^ 0) with 1. rewrite Z.mul_1_r. reflexivity.
        + rewrite Sx. eexists _, (u32 (u32 (u32 (low31 x)) * 2 ^ c)). split; [|split; [|reflexivity]]; [cbn [f_o negb andb]; reflexivity |].
          replace (u32 (u32 (u32 (low31 x)) * 2 ^ c)) with (u32 (low31 x * 2 ^ c)); [apply K|].
          rewrite u32_u32. unfold u32. rewrite Z.mul_mod_idemp_l by (unfold two32; lia). reflexivity. }
    destruct V as (f6 & r & Vf & Vr & Ve).
    eapply (step1 X code S0 [211; if right then 248 else 224] (if right then XSarC else XShlC)); [exact A|intros ?; destruct right; reflexivity|exact Ve|]. clear A; intros A.
    change (zlen [211; _]) with 2 in A.
    eapply jcc_o; [exact A|]. clear A; intros A. rewrite Vf.
    change (zlen (shift_ops right)) with 16.
    destruct (flag_of right w x y).
    - eexists. split; [apply xs_refl|]. exists (setr R5 RAX r), f6. split; [f_equal; lia|]. split; [exact V4|]. split; [exact V5|]. discriminate.
    - stp [141; 68; 0; 1] (XLea32 RAX) A. eexists. split; [apply xs_refl|]. do 2 eexists. split; [f_equal; lia|].
      split; [exact V4|]. split; [exact V5|]. intros v [= <-]. unfold setr at 1. cbn [reg_eqb]. unfold setr at 1. cbn [reg_eqb].
      unfold setr. cbn [reg_eqb]. exact Vr.
  Qed.
End Shift.

Section Thm.
  Context {W : Type} (X : xhost W) (S0 B Sp : Z) (HB : B mod 8 = 0) (HA16 : Sp mod 16 = 0).
  Context (addr : cfun -> Z) (Haddr : forall f, 0 <= addr f < two64).
  Context (rt : cfun -> W -> list Z -> res (W * Z)).
  Context (HX : forall f w L, length L = 6%nat -> xh_call X w (addr f) L = rt f w (map (fun n => nth n L 0) (apos f))).
  Context (need : Z) (Hneed : 3 <= need < 268435455) (HSp : Sp <= B - need * 8).
  (** Machine code for a << b (right: a >> b) on integers: its register gets the inline result,
      or, if the processor says overflow, what the runtime function answers. *)
  Theorem C76_shift : forall right a b w M x y w' v, 0 <= a < need -> 0 <= b < need ->
    M (B + slot a) = PN_NUM x -> M (B + slot b) = PN_NUM y ->
    (if flag_of X right w x y
     then rt (if right then F_obj_bitr else F_obj_bitl) w [M (B + slot (need - 3)); PN_NUM x; PN_NUM y] = Ok (w', v)
     else w' = w /\ v = PN_NUM (inline_shift right x y)) ->
    runs X S0 B Sp (x86_shift addr right need a b) w M w' (setm M (B + slot a) v).
  Proof.
    intros right a b w M x y w' v Ha Hb Ex Ey Hr code pc s A Gs.
    assert (F : apos (if right then F_obj_bitr else F_obj_bitl) = [0; 1; 2]%nat) by (destruct right; reflexivity).
    eapply (math_blk X code S0 B Sp HB HA16 addr Haddr rt HX (fun _ _ _ _ => UB) ltac:(discriminate) need Hneed HSp
      (if right then F_obj_bitr else F_obj_bitl) (shift_ops right) a b
      (if flag_of X right w x y then None else Some (PN_NUM (inline_shift right x y))) pc w M w' v F);
      [destruct right; vm_compute; discriminate | unfold inframe, slot; lia | unfold inframe, slot; lia | | | exact A | exact Gs].
    - intros _ _. rewrite Ex, Ey. apply ops_shift.
    - rewrite Ex, Ey, !odd_NUM. cbn [andb]. destruct (flag_of X right w x y); exact Hr.
  Qed.
  (** Within 30 bits and for counts below 32 the result is right, provided the runtime function is. *)
  Theorem C76_right_in_range : forall right a b w M x y, 0 <= a < need -> 0 <= b < need ->
    M (B + slot a) = PN_NUM x -> M (B + slot b) = PN_NUM y ->
    0 <= x < 2 ^ 30 -> 0 <= y < 32 -> true_shift right x y < 2 ^ 31 ->
    (rt (if right then F_obj_bitr else F_obj_bitl) w [M (B + slot (need - 3)); PN_NUM x; PN_NUM y] = Ok (w, PN_NUM (true_shift right x y))) ->
    runs X S0 B Sp (x86_shift addr right need a b) w M w (setm M (B + slot a) (PN_NUM (true_shift right x y))).
  Proof.
    intros right a b w M x y Ha Hb Ex Ey Hx Hy Hs Hr. change (2 ^ 30) with 1073741824 in Hx. change (2 ^ 31) with 2147483648 in Hs.
    apply (C76_shift right a b w M x y); try assumption.
    destruct (flag_of X right w x y); [exact Hr|]. split; [reflexivity|]. f_equal. unfold inline_shift, true_shift in *.
    rewrite low31_id by lia. replace (y mod 32) with y by lia.
    assert (P : 0 < 2 ^ y) by (apply Z.pow_pos_nonneg; lia).
    destruct right; rewrite Z.mod_small; try reflexivity.
    - split; [apply Z.div_pos; lia|]. exact Hs.
    - split; [nia|exact Hs].
  Qed.
End Thm.

(** ** Negative numbers and numbers of more than 30 bits are shifted wrongly, whatever the processor does
    with its overflow flag: -1 << 1, -8 >> 1, 2^30 >> 1, 1 << 32; 1 << 31 if the processor leaves the flag clear *)
Theorem C76_wrong_refuted : forall W (X : xhost W) w,
  (flag_of X false w (-1) 1 = false /\ inline_shift false (-1) 1 = 2147483646 /\ true_shift false (-1) 1 = -2) /\
  (flag_of X true w (-8) 1 = false /\ inline_shift true (-8) 1 = 2147483644 /\ true_shift true (-8) 1 = -4) /\
  (flag_of X true w (2 ^ 30) 1 = false /\ inline_shift true (2 ^ 30) 1 = 1610612736 /\ true_shift true (2 ^ 30) 1 = 536870912) /\
  (flag_of X false w 1 32 = false /\ inline_shift false 1 32 = 1 /\ true_shift false 1 32 = 4294967296) /\
  (inline_shift false 1 31 = 0 /\ true_shift false 1 31 = 2147483648).
Proof. intros W X w. repeat split. Qed.
(** ** A case that meets the hypotheses: 5 << 3 in registers 1 and 2 of a frame of 6 words *)
Definition ex_host : xhost Z := mkXH Z (fun w _ _ => Ok (w, PN_NUM 40)) (fun _ _ => UB) (fun _ _ _ => UB) (fun _ _ _ => true)
  (fun _ _ => 12345) (fun _ => mkF true true true) (fun _ _ => 54321).
Example C76_case : let M := setm (setm (fun _ => 0) (1048576 + slot 1) (PN_NUM 5)) (1048576 + slot 2) (PN_NUM 3) in
  runs ex_host 1048592 1048576 (1048576 - 64) (x86_shift (fun _ => 4096) false 6 1 2) 7 M 7 (setm M (1048576 + slot 1) (PN_NUM 40)).
Proof.
  intros M. apply (C76_right_in_range ex_host 1048592 1048576 (1048576 - 64) eq_refl eq_refl (fun _ => 4096) ltac:(unfold two64; lia)
    (fun _ w _ => Ok (w, PN_NUM 40)) ltac:(reflexivity) 6 ltac:(lia) ltac:(lia) false 1 2 7 M 5 3); try lia; try reflexivity.
Qed.
Example C76_example : inline_shift false 5 3 = 40 /\ true_shift false 5 3 = 40 /\ inline_shift true 1000 4 = 62 /\ true_shift true 1000 4 = 62.
Proof. repeat split. Qed.
