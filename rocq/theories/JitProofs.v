(** Executing the generated code: encodings, single steps, blocks. *)
From Coq Require Import ZifyBool.
From Verif Require Import Base Arr GArr WordModel AsmModel ObjModel PropIvf CompileModel X86Model JitModel.
Ltac Zify.zify_post_hook ::= Z.div_mod_to_equations.

(** ** Encodings *)
Definition mem_enc (base d : Z) : list Z :=
  if d <? -128 then (base + 64) :: le_bytes 4 d else [base; d mod 256].
Definition enc_reg (o : Z) (r : reg) (d : Z) : list Z :=
  match r with
  | RAX => [72; o] ++ mem_enc 69 d
  | RCX => [72; o] ++ mem_enc 77 d
  | RDX => [72; o] ++ mem_enc 85 d
  | RBX => [72; o] ++ mem_enc 93 d
  | RSI => [72; o] ++ mem_enc 117 d
  | RDI => [72; o] ++ mem_enc 125 d
  | R8 => [76; o] ++ mem_enc 69 d
  | R9 => [76; o] ++ mem_enc 77 d
  | _ => []
  end.
Definition enc_cc (c : cc) : Z :=
  match c with CO => 112 | CE => 116 | CNE => 117 | CS => 120 | CL => 124 | CGE => 125 | CLE => 126 | CG => 127 end.
Definition decs (bs : list Z) (i : xi) : Prop := forall rest, dec (bs ++ rest) = Some (i, zlen bs).

Definition gpr (r : reg) : bool := match r with RSP | RBP => false | _ => true end.

Lemma le4_s32 d : - 2147483648 <= d < 2147483648 -> s32 (le_val (le_bytes 4 d)) = d.
Proof.
  intros H.
  assert (E : le_val (le_bytes 4 d) = d mod two32).
  { cbn [le_bytes le_val]. unfold two32. lia. }
  rewrite E. unfold s32, two32. lia.
Qed.
Lemma le8_val v : 0 <= v < two64 -> le_val (le_bytes 8 v) = v.
Proof. intros H. apply le_val_bytes. change (256 ^ Z.of_nat 8) with two64. exact H. Qed.
Lemma i8_mod d : -128 <= d < 128 -> i8 (d mod 256) = d.
Proof. intros H. unfold i8. destruct (d mod 256 <? 128) eqn:E; lia. Qed.
Lemma zlen_le n x : zlen (le_bytes n x) = Z.of_nat n.
Proof. unfold zlen. rewrite le_bytes_len. reflexivity. Qed.
Lemma take4 d (rest : list Z) : take_n 4 (le_bytes 4 d ++ rest) = Some (le_bytes 4 d, rest).
Proof. apply (take_le 4). Qed.
Lemma take8 d (rest : list Z) : take_n 8 (le_bytes 8 d ++ rest) = Some (le_bytes 8 d, rest).
Proof. apply (take_le 8). Qed.
Lemma zlen_mem base d : zlen (mem_enc base d) = if d <? -128 then 5 else 2.
Proof. unfold mem_enc. destruct (d <? -128); [|reflexivity]. unfold zlen. cbn [length]. rewrite le_bytes_len. reflexivity. Qed.
Lemma zlen_cons' {A} (x : A) l : zlen (x :: l) = 1 + zlen l.
Proof. unfold zlen. cbn [length]. lia. Qed.

Lemma dec_rbp_enc rf k r n d rest :
  0 <= n < 8 -> rf n = Some r -> - 2147483648 <= d < 128 ->
  dec_rbp rf k (mem_enc (69 + 8 * n) d ++ rest) = Some (k r d, 2 + zlen (mem_enc (69 + 8 * n) d)).
Proof.
  intros Hn R D. rewrite zlen_mem. unfold mem_enc. destruct (d <? -128) eqn:E; cbn [app dec_rbp].
  - replace (negb ((69 + 8 * n + 64) mod 8 =? 5)) with false by lia.
    replace ((69 + 8 * n + 64) / 8 mod 8) with n by lia. rewrite R.
    replace ((69 + 8 * n + 64) / 64 =? 1) with false by lia.
    replace ((69 + 8 * n + 64) / 64 =? 2) with true by lia.
    rewrite take4, le4_s32 by lia. reflexivity.
  - replace (negb ((69 + 8 * n) mod 8 =? 5)) with false by lia.
    replace ((69 + 8 * n) / 8 mod 8) with n by lia. rewrite R.
    replace ((69 + 8 * n) / 64 =? 1) with true by lia.
    rewrite i8_mod by lia. reflexivity.
Qed.

Lemma decs_ld r d : gpr r = true -> - 2147483648 <= d < 128 -> decs (enc_reg 139 r d) (XLd r d).
Proof.
  intros G D rest.
  assert (K : forall n rf, 0 <= n < 8 -> rf n = Some r ->
    dec_rbp rf XLd (mem_enc (69 + 8 * n) d ++ rest) = Some (XLd r d, 2 + zlen (mem_enc (69 + 8 * n) d)))
    by (intros n rf H1 H2; apply dec_rbp_enc; assumption).
  destruct r; try discriminate G; cbn [enc_reg].
  all: rewrite <- app_assoc; rewrite (zlen_app [_; _]); change (zlen [_; _]) with 2.
  - specialize (K 0 reg64 ltac:(lia) eq_refl). change (69 + 8 * 0) with 69 in K.
    unfold mem_enc in *. destruct (d <? -128); exact K.
  - specialize (K 1 reg64 ltac:(lia) eq_refl). change (69 + 8 * 1) with 77 in K.
    unfold mem_enc in *. destruct (d <? -128); exact K.
  - specialize (K 2 reg64 ltac:(lia) eq_refl). change (69 + 8 * 2) with 85 in K.
    unfold mem_enc in *. destruct (d <? -128); exact K.
  - specialize (K 3 reg64 ltac:(lia) eq_refl). change (69 + 8 * 3) with 93 in K.
    unfold mem_enc in *. destruct (d <? -128); exact K.
  - specialize (K 6 reg64 ltac:(lia) eq_refl). change (69 + 8 * 6) with 117 in K.
    unfold mem_enc in *. destruct (d <? -128); exact K.
  - specialize (K 7 reg64 ltac:(lia) eq_refl). change (69 + 8 * 7) with 125 in K.
    unfold mem_enc in *. destruct (d <? -128); exact K.
  - specialize (K 0 reg8x ltac:(lia) eq_refl). change (69 + 8 * 0) with 69 in K.
    unfold mem_enc in *. destruct (d <? -128); exact K.
  - specialize (K 1 reg8x ltac:(lia) eq_refl). change (69 + 8 * 1) with 77 in K.
    unfold mem_enc in *. destruct (d <? -128); exact K.
Qed.
Lemma decs_st r d : gpr r = true -> - 2147483648 <= d < 128 -> decs (enc_reg 137 r d) (XSt r d).
Proof.
  intros G D rest.
  assert (K : forall n rf, 0 <= n < 8 -> rf n = Some r ->
    dec_rbp rf XSt (mem_enc (69 + 8 * n) d ++ rest) = Some (XSt r d, 2 + zlen (mem_enc (69 + 8 * n) d)))
    by (intros n rf H1 H2; apply dec_rbp_enc; assumption).
  destruct r; try discriminate G; cbn [enc_reg].
  all: rewrite <- app_assoc; rewrite (zlen_app [_; _]); change (zlen [_; _]) with 2.
  - specialize (K 0 reg64 ltac:(lia) eq_refl). change (69 + 8 * 0) with 69 in K.
    unfold mem_enc in *. destruct (d <? -128); exact K.
  - specialize (K 1 reg64 ltac:(lia) eq_refl). change (69 + 8 * 1) with 77 in K.
    unfold mem_enc in *. destruct (d <? -128); exact K.
  - specialize (K 2 reg64 ltac:(lia) eq_refl). change (69 + 8 * 2) with 85 in K.
    unfold mem_enc in *. destruct (d <? -128); exact K.
  - specialize (K 3 reg64 ltac:(lia) eq_refl). change (69 + 8 * 3) with 93 in K.
    unfold mem_enc in *. destruct (d <? -128); exact K.
  - specialize (K 6 reg64 ltac:(lia) eq_refl). change (69 + 8 * 6) with 117 in K.
    unfold mem_enc in *. destruct (d <? -128); exact K.
  - specialize (K 7 reg64 ltac:(lia) eq_refl). change (69 + 8 * 7) with 125 in K.
    unfold mem_enc in *. destruct (d <? -128); exact K.
  - specialize (K 0 reg8x ltac:(lia) eq_refl). change (69 + 8 * 0) with 69 in K.
    unfold mem_enc in *. destruct (d <? -128); exact K.
  - specialize (K 1 reg8x ltac:(lia) eq_refl). change (69 + 8 * 1) with 77 in K.
    unfold mem_enc in *. destruct (d <? -128); exact K.
Qed.
(** frame slots *)
Definition slot (r : Z) : Z := - ((r + 1) * 8).
Lemma mov_ebp_enc op r : 0 <= r -> mov_ebp op r = mem_enc op (slot r).
Proof.
  intros H. unfold mov_ebp, mem_enc, RBPN, RBPB, slot.
  destruct (15 <? r) eqn:A; destruct (- ((r + 1) * 8) <? -128) eqn:B; try lia; [reflexivity|].
  do 2 f_equal. lia.
Qed.
Lemma decs_movi v : 0 <= v < two64 -> decs ([72; 184] ++ ASMN v) (XMovI v).
Proof.
  intros H rest. unfold ASMN. rewrite <- app_assoc. rewrite zlen_app, zlen_le.
  change (dec ([72; 184] ++ le_bytes 8 v ++ rest)) with
    (match take_n 8 (le_bytes 8 v ++ rest) with Some (d, _) => Some (XMovI (le_val d), 10) | None => None end).
  rewrite take8, le8_val by exact H. reflexivity.
Qed.
Lemma decs_jcc c d : -128 <= d < 128 -> decs [enc_cc c; d mod 256] (XJcc c d).
Proof. intros H rest. rewrite <- (i8_mod d H) at 2. destruct c; reflexivity. Qed.
Lemma decs_jmp8 d : -128 <= d < 128 -> decs [235; d mod 256] (XJmp d).
Proof. intros H rest. rewrite <- (i8_mod d H) at 2. reflexivity. Qed.
Lemma decs_jmp32 d : - 2147483648 <= d < 2147483648 -> decs ([233] ++ ASMI d) (XJmp d).
Proof.
  intros H rest. unfold ASMI. rewrite <- app_assoc. rewrite zlen_app, zlen_le.
  change (dec ([233] ++ le_bytes 4 d ++ rest)) with
    (match take_n 4 (le_bytes 4 d ++ rest) with Some (d, _) => Some (XJmp (s32 (le_val d)), 5) | None => None end).
  rewrite take4, le4_s32 by exact H. reflexivity.
Qed.
Lemma decs_addi d : - 2147483648 <= d < 2147483648 -> decs ([72; 5] ++ ASMI d) (XAddI d).
Proof.
  intros H rest. unfold ASMI. rewrite <- app_assoc. rewrite zlen_app, zlen_le.
  change (dec ([72; 5] ++ le_bytes 4 d ++ rest)) with
    (match take_n 4 (le_bytes 4 d ++ rest) with Some (d, _) => Some (XAddI (s32 (le_val d)), 6) | None => None end).
  rewrite take4, le4_s32 by exact H. reflexivity.
Qed.
Lemma decs_subsp32 d : - 2147483648 <= d < 2147483648 -> decs ([72; 129; 236] ++ ASMI d) (XSubSp d).
Proof.
  intros H rest. unfold ASMI. rewrite <- app_assoc. rewrite zlen_app, zlen_le.
  change (dec ([72; 129; 236] ++ le_bytes 4 d ++ rest)) with
    (match take_n 4 (le_bytes 4 d ++ rest) with Some (d, _) => Some (XSubSp (s32 (le_val d)), 7) | None => None end).
  rewrite take4, le4_s32 by exact H. reflexivity.
Qed.
Lemma decs_subsp8 d : 0 <= d < 128 -> decs [72; 131; 236; d] (XSubSp d).
Proof. intros H rest. cbn. unfold i8. replace (d <? 128) with true by lia. reflexivity. Qed.
Lemma decs_cmpi d : 0 <= d < 128 -> decs [72; 131; 248; d] (XCmpI d).
Proof. intros H rest. cbn. unfold i8. replace (d <? 128) with true by lia. reflexivity. Qed.

(** ** Where code lies *)
Definition at_ (code : list Z) (pc : Z) (bs : list Z) : Prop :=
  exists pre post, code = pre ++ bs ++ post /\ zlen pre = pc.
Lemma at_app code pc a b : at_ code pc (a ++ b) -> at_ code pc a /\ at_ code (pc + zlen a) b.
Proof.
  intros (pre & post & E & L). split.
  - exists pre, (b ++ post). rewrite E, <- app_assoc. auto.
  - exists (pre ++ a), post. rewrite E, zlen_app, L, <- !app_assoc. auto.
Qed.
Lemma at_nonneg code pc bs : at_ code pc bs -> 0 <= pc.
Proof. intros (pre & post & _ & <-). apply zlen_nonneg. Qed.

Section Exec.
  Context {W : Type} (X : xhost W) (code : list Z) (S0 : Z).
  Notation xrun := (xrun X code S0).
  (** zero or more steps *)
  Definition xs (s s' : xst W) : Prop := exists n, forall k, xrun (n + k) s = xrun k s'.
  Lemma xs_refl s : xs s s.
  Proof. exists O. reflexivity. Qed.
  Lemma xs_trans a b c : xs a b -> xs b c -> xs a c.
  Proof. intros [n A] [m B]. exists (n + m)%nat. intros k. rewrite <- Nat.add_assoc, A, B. reflexivity. Qed.
  Lemma xs_one bs i s s' : at_ code (x_pc s) bs -> decs bs i ->
    exec X S0 i (zlen bs) s = Ok (XRun s') -> xs s s'.
  Proof.
    intros A D E. exists 1%nat. intros k. cbn [plus X86Model.xrun]. unfold xstep.
    pose proof (at_nonneg _ _ _ A). replace (x_pc s <? 0) with false by lia.
    destruct A as (pre & post & -> & <-). rewrite at_pc, (D post), E. reflexivity.
  Qed.
  Lemma xs_step bs i rest s s' s'' : at_ code (x_pc s) (bs ++ rest) -> decs bs i ->
    exec X S0 i (zlen bs) s = Ok (XRun s') ->
    (at_ code (x_pc s + zlen bs) rest -> xs s' s'') -> xs s s''.
  Proof.
    intros A D E K. apply at_app in A. destruct A as [A1 A2].
    eapply xs_trans; [eapply xs_one; eassumption|]. exact (K A2).
  Qed.

  (** the frame of the function: rbp = B, rsp = Sp *)
  Context (B Sp : Z) (HB : B mod 8 = 0) (HA16 : Sp mod 16 = 0) (HSp : 0 <= Sp) (HB64 : B < two64).
  Record G (pc : Z) (w : W) (M : Z -> Z) (s : xst W) : Prop := mkG {
    g_pc : x_pc s = pc; g_bp : x_r s RBP = B; g_sp : x_r s RSP = Sp; g_w : x_w s = w;
    g_m : forall ad, Sp <= ad -> x_m s ad = M ad }.
  (** a slot inside the frame *)
  Definition inframe (r : Z) : Prop := 0 <= r < 268435455 /\ Sp <= B + slot r.
  Lemma slot_al r : (B + slot r) mod 8 =? 0 = true.
  Proof. clear -HB. unfold slot. lia. Qed.

  Lemma ld q r s rest s'' : gpr q = true -> inframe r -> x_r s RBP = B ->
    at_ code (x_pc s) (enc_reg 139 q (slot r) ++ rest) ->
    (at_ code (x_pc s + zlen (enc_reg 139 q (slot r))) rest ->
     xs (mkX (x_pc s + zlen (enc_reg 139 q (slot r))) (setr (x_r s) q (x_m s (B + slot r))) (x_f s) (x_m s) (x_w s)) s'') ->
    xs s s''.
  Proof.
    intros Q F E A K. eapply xs_step; [exact A| |  |exact K].
    - apply decs_ld; [exact Q|]. unfold slot. destruct F. lia.
    - cbn [exec]. rewrite E, slot_al. reflexivity.
  Qed.
  Lemma st q r s rest s'' : gpr q = true -> inframe r -> x_r s RBP = B ->
    at_ code (x_pc s) (enc_reg 137 q (slot r) ++ rest) ->
    (at_ code (x_pc s + zlen (enc_reg 137 q (slot r))) rest ->
     xs (mkX (x_pc s + zlen (enc_reg 137 q (slot r))) (x_r s) (x_f s) (setm (x_m s) (B + slot r) (x_r s q)) (x_w s)) s'') ->
    xs s s''.
  Proof.
    intros Q F E A K. eapply xs_step; [exact A| |  |exact K].
    - apply decs_st; [exact Q|]. unfold slot. destruct F. lia.
    - cbn [exec]. rewrite E, slot_al. reflexivity.
  Qed.
  Lemma G_mem pc w M s ad : G pc w M s -> Sp <= ad -> x_m s ad = M ad.
  Proof. intros []. auto. Qed.
  (** a store in the frame *)
  Lemma G_set pc w M s pc' r f w' a v m : G pc w M s -> inframe a -> r RBP = B -> r RSP = Sp ->
    (forall ad, Sp <= ad -> m ad = x_m s ad) -> w' = w ->
    G pc' w' (setm M (B + slot a) v) (mkX pc' r f (setm m (B + slot a) v) w).
  Proof.
    intros [g1 g2 g3 g4 g5] F H1 H2 H3 ->. split; cbn; auto.
    intros ad L. unfold setm. destruct (ad =? B + slot a); [reflexivity|]. rewrite H3 by exact L. auto.
  Qed.

  (** loading arguments *)
  Definition loads (l : list (reg * Z)) : list Z :=
    flat_map (fun p => enc_reg 139 (fst p) (slot (snd p))) l.
  Lemma loads_ok l : forall pc w M s rest, Forall (fun p => gpr (fst p) = true /\ inframe (snd p)) l ->
    NoDup (map fst l) -> G pc w M s -> at_ code pc (loads l ++ rest) ->
    exists R, xs s (mkX (pc + zlen (loads l)) R (x_f s) (x_m s) w) /\
      at_ code (pc + zlen (loads l)) rest /\
      R RBP = B /\ R RSP = Sp /\ (forall q r, In (q, r) l -> R q = M (B + slot r)) /\
      (forall q, ~ In q (map fst l) -> R q = x_r s q).
  Proof.
    induction l as [|[q r] l IH]; intros pc w M s rest F N Gs A.
    - exists (x_r s). cbn [loads flat_map] in *. change (zlen (@nil Z)) with 0. rewrite Z.add_0_r.
      destruct s as [pc' R f m w']; destruct Gs as [g1 g2 g3 g4 g5]; cbn in *. subst.
      split; [apply xs_refl|]. repeat split; auto. intros q r [].
    - inversion F as [|? ? [F1 F2] F3]; subst. inversion N as [|? ? N1 N2]; subst. cbn [fst snd] in *.
      change (loads ((q, r) :: l)) with (enc_reg 139 q (slot r) ++ loads l) in *.
      rewrite <- app_assoc in A. rewrite zlen_app.
      set (s1 := mkX (pc + zlen (enc_reg 139 q (slot r))) (setr (x_r s) q (x_m s (B + slot r))) (x_f s) (x_m s) w).
      assert (A2 : at_ code (pc + zlen (enc_reg 139 q (slot r))) (loads l ++ rest)) by (apply at_app in A; apply A).
      assert (G1 : G (pc + zlen (enc_reg 139 q (slot r))) w M s1).
      { destruct Gs as [g1 g2 g3 g4 g5]. subst s1. split; cbn; auto;
        unfold setr; destruct q; try discriminate F1; assumption. }
      destruct (IH _ _ _ _ rest F3 N2 G1 A2) as (R & X1 & X2 & X3 & X4 & X5 & X6).
      exists R. rewrite Z.add_assoc. split; [|split; [exact X2|split; [exact X3|split; [exact X4|split]]]].
      + pose proof (g_pc _ _ _ _ Gs) as Ep. pose proof (g_w _ _ _ _ Gs) as Ew.
        eapply (ld q r s); [exact F1|exact F2|exact (g_bp _ _ _ _ Gs)|rewrite Ep; exact A|].
        intros _. rewrite Ep, Ew. exact X1.
      + intros q' r' [E|I].
        * injection E as <- <-. rewrite X6 by exact N1. subst s1. cbn. unfold setr.
          replace (reg_eqb q q) with true by (destruct q; reflexivity).
          apply (G_mem _ _ _ _ _ Gs). apply F2.
        * auto.
      + intros q' NI. rewrite X6 by (intro; apply NI; right; assumption). subst s1. cbn. unfold setr.
        destruct (reg_eqb q' q) eqn:E; [|reflexivity].
        exfalso. apply NI. left. destruct q, q'; try discriminate E; reflexivity.
  Qed.

  Context (addr : cfun -> Z) (Haddr : forall f, 0 <= addr f < two64).
  (** call a runtime function with arguments from the frame *)
  Lemma call_ok l f pc w M s rest w' v : Forall (fun p => gpr (fst p) = true /\ inframe (snd p)) l ->
    NoDup (map fst l) -> ~ In RAX (map fst l) -> G pc w M s -> at_ code pc (loads l ++ callf addr f ++ rest) ->
    (forall R, (forall q r, In (q, r) l -> R q = M (B + slot r)) ->
       xh_call X w (addr f) [R RDI; R RSI; R RDX; R RCX; R R8; R R9] = Ok (w', v)) ->
    exists s', xs s s' /\ G (pc + zlen (loads l ++ callf addr f)) w' M s' /\ x_r s' RAX = v /\
      at_ code (pc + zlen (loads l ++ callf addr f)) rest.
  Proof.
    intros F N NR Gs A C. destruct (loads_ok l pc w M s _ F N Gs A) as (R & X1 & X2 & X3 & X4 & X5 & X6).
    set (pc1 := pc + zlen (loads l)) in *.
    assert (C2 : exists s', xs (mkX pc1 R (x_f s) (x_m s) w) s' /\ G (pc1 + 12) w' M s' /\ x_r s' RAX = v).
    { eexists. split.
      - unfold callf in X2. rewrite <- !app_assoc in X2.
        eapply (xs_step ([72; 184] ++ ASMN (addr f)) (XMovI (addr f)));
          [cbn [x_pc]; rewrite <- app_assoc; exact X2|apply decs_movi; apply Haddr|reflexivity|].
        cbn [x_pc]. intros X2'. 
        eapply (xs_step [255; 208] XCall); [exact X2'|intros rst; reflexivity| |intros _; apply xs_refl].
        cbn [exec x_r x_w x_pc x_m]. unfold setr at 1 2 3 4 5 6 7 8. cbn [reg_eqb].
        rewrite X4, HA16, (C R X5). cbn [bind fst snd]. reflexivity.
      - split.
        + split; cbn [x_pc x_r x_w x_m]; auto.
          * unfold ASMN. rewrite zlen_app, zlen_le. change (zlen [72; 184]) with 2. change (zlen [255; 208]) with 2. lia.
          * intros ad L. unfold setr; cbn [reg_eqb]. rewrite X4. replace (ad <? Sp) with false by lia.
            apply (G_mem _ _ _ _ _ Gs L).
        + reflexivity. }
    destruct C2 as (s' & Y1 & Y2 & Y3). exists s'.
    assert (L : zlen (callf addr f) = 12) by (unfold callf, ASMN; rewrite !zlen_app, zlen_le; reflexivity).
    replace (pc + zlen (loads l ++ callf addr f)) with (pc1 + 12) by (rewrite zlen_app, L; unfold pc1; lia).
    split; [eapply xs_trans; eassumption|]. split; [exact Y2|]. split; [exact Y3|].
    apply at_app in X2. rewrite L in X2. apply X2.
  Qed.
  Lemma callst_ok l f a pc w M s w' v : Forall (fun p => gpr (fst p) = true /\ inframe (snd p)) l ->
    NoDup (map fst l) -> ~ In RAX (map fst l) -> inframe a -> G pc w M s ->
    at_ code pc (loads l ++ callf addr f ++ enc_reg 137 RAX (slot a)) ->
    (forall R, (forall q r, In (q, r) l -> R q = M (B + slot r)) ->
       xh_call X w (addr f) [R RDI; R RSI; R RDX; R RCX; R R8; R R9] = Ok (w', v)) ->
    exists s', xs s s' /\
      G (pc + zlen (loads l ++ callf addr f ++ enc_reg 137 RAX (slot a))) w' (setm M (B + slot a) v) s'.
  Proof.
    intros F N NR Fa Gs A C. destruct (call_ok l f pc w M s _ w' v F N NR Gs A C) as (s1 & X1 & X2 & X3 & X4).
    rewrite app_assoc, zlen_app, Z.add_assoc. set (pc1 := pc + zlen (loads l ++ callf addr f)) in *.
    eexists. split.
    - eapply xs_trans; [exact X1|].
      eapply (st RAX a s1 []); [reflexivity|exact Fa|exact (g_bp _ _ _ _ X2)|
        rewrite (g_pc _ _ _ _ X2), app_nil_r; exact X4|intros _; apply xs_refl].
    - rewrite (g_pc _ _ _ _ X2), X3, (g_w _ _ _ _ X2).
      eapply G_set; [exact X2|exact Fa|exact (g_bp _ _ _ _ X2)|exact (g_sp _ _ _ _ X2)|reflexivity|reflexivity].
  Qed.
End Exec.
