(** Property C80: named arguments. *)
From Coq Require Import ZifyBool.
From Verif Require Import Base Arr GArr WordModel WordProofs NumModel AsmModel ObjModel SigModel CompileModel VmModel
  X86Model JitModel JitProofs JitSem JitSim JitRun JitUpModel SrcSpec CompileProofs CompileExt CodeGen SimTop SimStep PropSig PropJit PropJitShift.
Ltac Zify.zify_post_hook ::= Z.div_mod_to_equations.

(** the names of the parameters a signature declares, in order *)
Definition param_names (l : list item) : list Z := map (fun i => match i with Param n _ => n | _ => 0 end) (params l).

Lemma gnth_rd (l : list Z) i x : gnth l i = Some x -> znth l i = x.
Proof. unfold gnth, znth. destruct (i <? 0); [discriminate|]. intros E. apply nth_error_nth. exact E. Qed.
Lemma params_app l1 l2 : params (l1 ++ l2) = params l1 ++ params l2.
Proof. unfold params. apply filter_app. Qed.
Lemma find_at l : forall k n, nth_error (params l) k = Some n -> exists pre post, l = pre ++ n :: post /\ length (params pre) = k /\ is_param n = true.
Proof.
  induction l as [|i l IH]; intros k n E; [destruct k; discriminate E|].
  unfold params in E. cbn [filter] in E. fold (params l) in E. destruct (is_param i) eqn:P.
  - destruct k as [|k].
    + injection E as ->. exists [], l. auto.
    + destruct (IH k n E) as (pre & post & -> & Lk & Pn). exists (i :: pre), post. split; [reflexivity|]. split; [|exact Pn].
      unfold params. cbn [filter]. rewrite P. cbn [length]. fold (params pre). lia.
  - destruct (IH k n E) as (pre & post & -> & Lk & Pn). exists (i :: pre), post. split; [reflexivity|]. split; [|exact Pn].
    unfold params. cbn [filter]. rewrite P. exact Lk.
Qed.
(** a name is found at the position of its parameter *)
Lemma find_position is_str l k n : strings_are_objects is_str -> Forall (item_ok is_str) l -> Forall (plain_default is_str) l ->
  NoDup (param_names l) -> nth_error (param_names l) k = Some n -> sig_find is_str (enc l) n = Z.of_nat k.
Proof.
  intros SO H D N E. unfold param_names in E. rewrite nth_error_map in E.
  destruct (nth_error (params l) k) as [i|] eqn:Ei; [|discriminate E]. cbn [option_map] in E. injection E as E.
  destruct (find_at l k i Ei) as (pre & post & -> & Lk & Pi). destruct i as [m d| |]; try discriminate Pi. subst m.
  rewrite C38_named; auto.
  - unfold zlen. lia.
  - apply Forall_app in D. apply D.
  - intros m e I Q. subst m. unfold param_names in N. rewrite params_app, map_app in N.
    unfold params in N at 2. cbn [filter is_param] in N. cbn [map] in N. apply NoDup_remove_2 in N. apply N. apply in_or_app. left.
    apply in_map_iff. exists (Param n e). split; [reflexivity|]. unfold params. apply filter_In. auto.
Qed.

Section Named.
  Context {W : Type} (H : host W) (tbl : list pb) (is_str : Z -> bool) (STR0 : Z).
  Context (fid : Z) (F : pb) (cu : Z).
  Let reg := regbase cu F.
  Context (PF : gnth tbl fid = Some F) (SM : small F) (CU : 0 <= cu) (RM : reg + b_stack F <= 4096).
  Notation St st pos w fs := (mkV st cu fid pos w fs).
  Notation op := (op F).
  Notation run1 := (run1 H tbl is_str STR0).
  Notation star := (star H tbl is_str STR0).
  Notation rok := (rok F).
  Ltac gox OP := let P := fresh in pose proof (op_range is_str F cu SM _ _ _ _ OP) as P; pose proof (gnth_Some _ _ _ OP) as P2;
    pose proof (reg_ge is_str F cu); pose proof (zlen_nonneg (b_upvals F)) as P3; pose proof (zlen_nonneg (b_locals F)) as P4; unfold SimStep.rok in *; intros nested; unfold VmModel.step; cbn [v_st v_w v_f v_cu v_pos v_fs];
    unfold proto_at, grd; rewrite PF; cbn [bind]; replace (_ <? zlen (b_code F)) with true by lia; cbn [negb]; unfold instr_at; rewrite OP;
    cbv zeta; fold reg; cbv beta iota.
  Ltac rr := rewrite ?rd_ok by lia; cbn [bind]; rewrite ?wr_ok by (rewrite ?zlen_upd; lia); cbn [bind]; rewrite ?u32_id by lia; try reflexivity.
  Lemma x_named st pos w fs a b w' x : op pos O_NAMED a b -> rok a -> rok (b - 1) -> rok b -> zlen st = 4096 ->
    h_prim H P_sig_find w [znth st (reg + a); znth st (reg + (b - 1))] = Ok (w', PN_NUM x) -> 0 <= x < two62 -> rok (a + 2 + x) ->
    run1 (St st pos w fs) (St (supd st (reg + (a + 2 + x)) (znth st (reg + b))) (pos + 1) w' fs).
  Proof.
    intros OP A Bn B Z E X K. gox OP. fold reg in H1. rr. rewrite E. cbn [bind fst snd]. rewrite PN_INT_NUM by (apply repb_spec; unfold two62 in *; lia).
    replace (0 <=? x) with true by lia. replace (reg + a + x + 2) with (reg + (a + 2 + x)) by lia. rr.
  Qed.
  Lemma x_named_unknown st pos w fs a b w' x nested : op pos O_NAMED a b -> rok a -> rok (b - 1) -> rok b -> zlen st = 4096 ->
    h_prim H P_sig_find w [znth st (reg + a); znth st (reg + (b - 1))] = Ok (w', PN_NUM x) -> - two62 <= x < 0 ->
    VmModel.step H tbl is_str STR0 nested (St st pos w fs) = Ok SFatal.
  Proof.
    intros OP A Bn B Z E X. revert nested. gox OP. fold reg in H1. rr. rewrite E. cbn [bind fst snd]. rewrite PN_INT_NUM by (apply repb_spec; unfold two62 in *; lia).
    replace (0 <=? x) with false by lia. reflexivity.
  Qed.

  (** ** Calls *)
  (** registers: the closure, the object, then the arguments; [n] arguments are written
      in the call, and the two registers behind them hold a name and its value *)
  Context (a n : Z) (Ha : 0 <= a) (Hn : 0 <= n) (Hrok : a + n + 3 < b_stack F).
  Context (st0 : list Z).
  Let sreg := a + 2 + n.
  Definition below (st : list Z) : Prop := zlen st = 4096 /\ forall j, 0 <= j < reg + a + 2 -> znth st j = znth st0 j.
  (** the code from [pos] to [p1] computes a value into register [r] and leaves the
      registers below [r - 1], and all else on the stack, as they were *)
  Definition computes (r pos : Z) (w : W) (fs : Z -> Z) (p1 : Z) (w1 : W) (v : Z) : Prop := forall st, below st ->
    exists st', star (St st pos w fs) (St st' p1 w1 fs) /\ zlen st' = 4096 /\ znth st' (reg + r) = v /\
                forall j, 0 <= j < reg + r - 1 -> znth st' j = znth st j.
  (** named arguments, as compile.c 268-320 writes them *)
  Inductive named_args (fs : Z -> Z) : Z -> W -> list (Z * Z) -> Z -> W -> Prop :=
  | na_nil pos w : named_args fs pos w [] pos w
  | na_cons pos w p1 w1 k nm v args pos' w' : computes (sreg + 1) pos w fs p1 w1 v ->
      op p1 O_LOADK sreg k -> gnth (b_values F) k = Some nm -> op (p1 + 1) O_NAMED a (sreg + 1) ->
      named_args fs (p1 + 2) w1 args pos' w' -> named_args fs pos w ((nm, v) :: args) pos' w'.

  (** the closure's signature *)
  Context (cl : Z) (l : list item) (SO : strings_are_objects is_str) (Hl : Forall (item_ok is_str) l)
          (Hd : Forall (plain_default is_str) l) (Nd : NoDup (param_names l)).
  Context (Hsig : forall w nm, h_prim H P_sig_find w [cl; nm] = Ok (w, PN_NUM (sig_find is_str (enc l) nm))).
  Context (Hcl : znth st0 (reg + a) = cl).

  Lemma na_run fs pos w args pos' w' : named_args fs pos w args pos' w' -> NoDup (map fst args) ->
    (forall nm, In nm (map fst args) -> exists k, nth_error (param_names l) k = Some nm /\ Z.of_nat k < n) ->
    forall st, below st ->
    exists st', star (St st pos w fs) (St st' pos' w' fs) /\ below st' /\
      (forall k nm v, In (nm, v) args -> nth_error (param_names l) k = Some nm -> znth st' (reg + (a + 2 + Z.of_nat k)) = v) /\
      (forall k, 0 <= k < n -> (forall nm, nth_error (param_names l) (Z.to_nat k) = Some nm -> ~ In nm (map fst args)) ->
         znth st' (reg + (a + 2 + k)) = znth st (reg + (a + 2 + k))).
  Proof.
    pose proof (reg_ge is_str F cu) as Rg. fold reg in Rg. pose proof (zlen_nonneg (b_upvals F)) as Z1. pose proof (zlen_nonneg (b_locals F)) as Z2.
    induction 1 as [pos w|pos w p1 w1 ix nm v args pos' w' C OK Gv ON A IH]; intros ND In1 st Bs.
    - exists st. split; [constructor|]. split; [exact Bs|]. split; [intros k nm v []|]. intros; reflexivity.
    - destruct (C st Bs) as (s1 & X1 & L1 & V1 & K1). cbn [map fst] in ND. inversion ND as [|x xs N1 N2]; subst x xs.
      destruct (In1 nm ltac:(left; reflexivity)) as (k & Ek & Kn).
      pose proof (gnth_Some _ _ _ Gv) as Gr.
      pose proof (x_loadk H tbl is_str STR0 fid F cu PF SM CU RM s1 p1 w1 fs sreg ix OK ltac:(unfold SimStep.rok, sreg; lia) Gr L1) as X2. fold reg in X2.
      set (s2 := supd s1 (reg + sreg) (znth (b_values F) ix)) in *.
      assert (L2 : zlen s2 = 4096) by (unfold s2; rewrite zlen_upd by (unfold sreg; lia); exact L1).
      assert (Vn : znth s2 (reg + sreg) = nm).
      { unfold s2. rewrite znth_upd_same by (unfold sreg; lia). apply gnth_rd in Gv. exact Gv. }
      assert (K2 : forall j, 0 <= j -> j <> reg + sreg -> znth s2 j = znth s1 j).
      { intros j J0 Hj. unfold s2. apply znth_upd_other; unfold sreg in *; lia. }
      assert (Vc : znth s2 (reg + a) = cl).
      { rewrite K2 by (unfold sreg; lia). rewrite K1 by (unfold sreg; lia). rewrite (proj2 Bs) by lia. exact Hcl. }
      assert (Vv : znth s2 (reg + (sreg + 1)) = v) by (rewrite K2 by lia; exact V1).
      pose proof (x_named s2 (p1 + 1) w1 fs a (sreg + 1) w1 (Z.of_nat k) ON ltac:(unfold SimStep.rok; lia) ltac:(unfold SimStep.rok, sreg; lia)
        ltac:(unfold SimStep.rok, sreg; lia) L2) as X3.
      replace (sreg + 1 - 1) with sreg in X3 by lia. rewrite Vc, Vn, Hsig, (find_position is_str l k nm SO Hl Hd Nd Ek) in X3.
      destruct SM as (_ & _ & _ & _ & _ & Sb). unfold two62 in X3.
      specialize (X3 eq_refl ltac:(lia) ltac:(unfold SimStep.rok; lia)). rewrite Vv in X3.
      set (s3 := supd s2 (reg + (a + 2 + Z.of_nat k)) v) in *.
      assert (L3 : zlen s3 = 4096) by (unfold s3; rewrite zlen_upd by lia; exact L2).
      assert (V3 : znth s3 (reg + (a + 2 + Z.of_nat k)) = v) by (unfold s3; apply znth_upd_same; lia).
      assert (K3 : forall j, 0 <= j -> j <> reg + (a + 2 + Z.of_nat k) -> znth s3 j = znth s2 j).
      { intros j J0 Hj. unfold s3. apply znth_upd_other; lia. }
      assert (B3 : below s3).
      { split; [exact L3|]. intros j Hj. rewrite K3 by lia. rewrite K2 by (unfold sreg; lia). rewrite K1 by (unfold sreg; lia). apply Bs. lia. }
      replace (p1 + 1 + 1) with (p1 + 2) in X3 by lia.
      destruct (IH N2 ltac:(intros; apply In1; right; assumption) s3 B3) as (s4 & X4 & B4 & V4 & K4).
      exists s4. split; [|split; [exact B4|split]].
      + eapply star_trans; [exact X1|]. eapply star_step; [exact X2|]. eapply star_step; [exact X3|exact X4].
      + intros k' nm' v' [E|I] Ek'.
        * injection E as <- <-. assert (k' = k).
          { rewrite (NoDup_nth_error (param_names l)) in Nd. apply Nd; [|congruence]. apply nth_error_Some. congruence. }
          subst k'. rewrite K4 by (rewrite ?Nat2Z.id; try lia; intros nm' Q; replace nm' with nm by congruence; exact N1). exact V3.
        * eapply V4; eassumption.
      + intros j Hj Nj. rewrite K4; [|exact Hj|intros nm' Q I; apply (Nj nm' Q); right; exact I].
        assert (j <> Z.of_nat k) by (intros ->; apply (Nj nm); [rewrite Nat2Z.id; exact Ek|left; reflexivity]).
        rewrite K3 by lia. rewrite K2 by (unfold sreg; lia). apply K1. unfold sreg. lia.
  Qed.
  Lemma read_vals st vals : forall i, 0 <= i -> i + zlen vals <= zlen st -> (forall k v, nth_error vals k = Some v -> znth st (i + Z.of_nat k) = v) ->
    read_regs st i (length vals) = Ok vals.
  Proof.
    induction vals as [|v vals IH]; intros i Hi Hz E; [reflexivity|]. rewrite zlen_cons in Hz. pose proof (zlen_nonneg vals).
    cbn [length read_regs]. rewrite rd_ok by lia. cbn [bind]. pose proof (E O v eq_refl) as E0. replace (i + Z.of_nat 0) with i in E0 by lia.
    rewrite IH; [cbn [bind]; rewrite E0; reflexivity|lia|lia|]. intros k x Ek. specialize (E (S k) x Ek). replace (i + 1 + Z.of_nat k) with (i + Z.of_nat (S k)) by lia. exact E.
  Qed.
  (** C80: the arguments of a call, all of them named, in any order: the function is
      called with the values in the order of its parameters. *)
  Theorem C80_call fs st pos w args pos' w' vals minargs w2 r :
    below st -> named_args fs pos w args pos' w' -> op pos' O_CALL a (a + 1 + n) ->
    zlen (params l) = n -> zlen args = n -> NoDup (map fst args) ->
    length vals = length (param_names l) ->
    (forall k nm v, nth_error (param_names l) k = Some nm -> nth_error vals k = Some v -> In (nm, v) args) ->
    h_kind H w' cl = KNative (Some (enc l)) n minargs -> minargs <= n ->
    h_prim H P_call w' (cl :: znth st0 (reg + a + 1) :: vals) = Ok (w2, r) ->
    exists st', star (St st pos w fs) (St st' (pos' + 1) w2 fs) /\ znth st' (reg + a) = r /\
                forall j, 0 <= j < reg + a -> znth st' j = znth st0 j.
  Proof.
    intros Bs NA OC Lp La ND Lv HV HK Hm HC.
    assert (Ln : zlen (param_names l) = n) by (unfold param_names, zlen in *; rewrite map_length; exact Lp).
    pose proof (reg_ge is_str F cu) as Rg. fold reg in Rg. pose proof (zlen_nonneg (b_upvals F)) as Z1. pose proof (zlen_nonneg (b_locals F)) as Z2.
    assert (Inc : incl (param_names l) (map fst args)).
    { intros nm I. apply In_nth_error in I as (k & Ek). assert (nth_error vals k <> None) as Nv.
      { apply nth_error_Some. rewrite Lv. apply nth_error_Some. congruence. }
      destruct (nth_error vals k) as [v|] eqn:Ev; [|contradiction]. apply in_map_iff. exists (nm, v). split; [reflexivity|eapply HV; eassumption]. }
    assert (Inc2 : incl (map fst args) (param_names l)).
    { apply NoDup_length_incl; [exact Nd| |exact Inc]. rewrite map_length. unfold zlen in *. lia. }
    destruct (na_run fs pos w args pos' w' NA ND) with (st := st) as (s1 & X1 & B1 & V1 & _).
    { intros nm I. apply Inc2 in I. apply In_nth_error in I as (k & Ek). exists k. split; [exact Ek|].
      assert (nth_error (param_names l) k <> None) as Q by congruence. apply nth_error_Some in Q. unfold zlen in Ln. lia. }
    { exact Bs. }
    destruct B1 as [L1 K1].
    assert (RD : read_regs s1 (reg + a + 1) (length (znth st0 (reg + a + 1) :: vals)) = Ok (znth st0 (reg + a + 1) :: vals)).
    { apply read_vals; [lia| |].
      - rewrite zlen_cons. unfold zlen at 1. rewrite Lv. unfold zlen in Ln. rewrite Ln. lia.
      - intros [|k] v Ek.
        + cbn in Ek. injection Ek as <-. replace (reg + a + 1 + Z.of_nat 0) with (reg + a + 1) by lia. apply K1. lia.
        + cbn [nth_error] in Ek. destruct (nth_error (param_names l) k) as [nm|] eqn:En.
          * replace (reg + a + 1 + Z.of_nat (S k)) with (reg + (a + 2 + Z.of_nat k)) by lia. eapply V1; [eapply HV; eassumption|exact En].
          * exfalso. apply nth_error_None in En. rewrite <- Lv in En. apply nth_error_None in En. congruence. }
    exists (supd s1 (reg + a) r). split; [|split].
    - eapply star_trans; [exact X1|]. apply star_one.
      gox OC. fold reg. rewrite rd_ok by lia. cbn [bind]. rewrite K1, Hcl by lia. rewrite HK. unfold call_closure. rewrite HK. cbv zeta.
      replace (a + 1 + n - a - 1) with n by lia.
      assert (Sc : sig_check minargs n n = false) by (unfold sig_check; destruct (n >? 0); [destruct (n <? minargs) eqn:E1; [lia|destruct (n >? n) eqn:E2; [lia|reflexivity]]|reflexivity]).
      rewrite Sc. replace (Z.max 0 (n - n)) with 0 by lia. change (Z.to_nat 0) with O. cbn [fill_defaults bind].
      replace (Z.to_nat (a + 1 + n + 0 - a)) with (length (znth st0 (reg + a + 1) :: vals)) by (cbn [length]; rewrite Lv; unfold zlen in Ln; lia).
      rewrite RD. cbn [bind]. rewrite HC. cbn [bind fst snd v_st v_cu v_f v_pos v_fs]. rr.
    - apply znth_upd_same. lia.
    - intros j Hj. rewrite znth_upd_other by lia. apply K1. lia.
  Qed.
End Named.

Lemma find_none is_str l n : strings_are_objects is_str -> is_str n = true -> Forall (item_ok is_str) l -> Forall (plain_default is_str) l ->
  ~ In n (param_names l) -> sig_find is_str (enc l) n = -1.
Proof.
  intros SO Sn H D N. unfold sig_find. generalize 0 as idx. induction l as [|i l IH]; intros idx; [reflexivity|].
  apply Forall_cons_iff in H as [H1 H]. apply Forall_cons_iff in D as [D1 D].
  unfold enc. cbn [map concat]. fold (enc l). rewrite find_skip; auto.
  - apply IH; auto. intros I. apply N. unfold param_names, params in *. cbn [filter]. destruct (is_param i); [right|]; exact I.
  - intros m d ->. intros ->. apply N. left. reflexivity.
Qed.
(** ** A name the signature does not have stops the interpreter *)
Theorem C80_unknown : forall W (H : host W) tbl is_str STR0 fid F cu st pos w fs a b l nested,
  gnth tbl fid = Some F -> small F -> 0 <= cu -> regbase cu F + b_stack F <= 4096 -> zlen st = 4096 ->
  op F pos O_NAMED a b -> 0 <= a < b_stack F -> 1 <= b < b_stack F ->
  strings_are_objects is_str -> Forall (item_ok is_str) l -> Forall (plain_default is_str) l ->
  h_prim H P_sig_find w [znth st (regbase cu F + a); znth st (regbase cu F + (b - 1))] =
    Ok (w, PN_NUM (sig_find is_str (enc l) (znth st (regbase cu F + (b - 1))))) ->
  is_str (znth st (regbase cu F + (b - 1))) = true -> ~ In (znth st (regbase cu F + (b - 1))) (param_names l) ->
  VmModel.step H tbl is_str STR0 nested (mkV st cu fid pos w fs) = Ok SFatal.
Proof.
  intros W H tbl is_str STR0 fid F cu st pos w fs a b l nested PF SM CU RM Z OP A B SO Hl Hd E Sn N.
  assert (Q : sig_find is_str (enc l) (znth st (regbase cu F + (b - 1))) = -1).
  { apply find_none; auto. }
  rewrite Q in E. eapply x_named_unknown; eauto; unfold SimStep.rok, two62; lia.
Qed.

(** ** What the compiler writes *)
(** name = value, as the parser writes it *)
Definition named_tree (p : Z * Z) : src := Src ASSIGN (SSrc (S1 EXPR (STup [MsgOf (fst p) SNil SNil]))) (SSrc (S1 EXPR (STup [ValOf (snd p)]))) SNil.
(** [F] is the function of [c] with more code and constants behind *)
Definition grows (c : cst) (F : pb) : Prop := pre (b_code (c_f c)) (b_code F) /\ pre (b_values (c_f c)) (b_values F).
Lemma grows_reg r c F : grows (PN_REG r c) F <-> grows c F.
Proof. unfold grows, PN_REG, onf. cbn. destruct (_ <=? _); reflexivity. Qed.
Lemma oplen_reg r c : oplen (PN_REG r c) = oplen c.
Proof. unfold oplen, PN_REG, onf. cbn. destruct (_ <=? _); reflexivity. Qed.
Lemma grows_asm o a b c F : grows (asm2 o a b c) F -> grows c F /\ gnth (b_code F) (oplen c) = Some (mkI o (sx12 a) (sx12 b)) /\ oplen (asm2 o a b c) = oplen c + 1.
Proof.
  intros [[t E] V]. cbn in E, V. split; [|split].
  - split; [|exact V]. exists ([mkI o (sx12 a) (sx12 b)] ++ t). rewrite app_assoc. exact E.
  - rewrite E, <- app_assoc. unfold oplen. rewrite gnth_app2 by lia. rewrite Z.sub_diag. reflexivity.
  - unfold oplen. cbn. rewrite zlen_app. reflexivity.
Qed.
Lemma grows_load v r c F : 0 <= r < 2048 -> zlen (b_values F) <= 2047 -> grows (load_value v r c) F ->
  grows c F /\ oplen (load_value v r c) = oplen c + 1 /\
  ((PN_IS_PTR v = false /\ op F (oplen c) O_LOADPN r (sx12 v) /\ u64 (sx12 v) = v) \/
   exists k, op F (oplen c) O_LOADK r k /\ gnth (b_values F) k = Some v).
Proof.
  intros Hr Hv. unfold load_value. destruct (negb (PN_IS_PTR v) && (v =? u64 (sx12 v))) eqn:E; intros G.
  - apply grows_asm in G as (G & O1 & L). split; [exact G|]. split; [exact L|]. left. split; [destruct (PN_IS_PTR v); [discriminate E|reflexivity]|].
    unfold op. rewrite O1, (sx12_small r) by lia. split; [reflexivity|lia].
  - unfold put_value in *.     assert (P : pre (b_values (c_f c)) (fst (vput (b_values (c_f c)) v))) by (unfold vput; destruct (vfind _ _); cbn [fst]; [apply pre_refl|apply pre_app]).
    pose proof (vput_find (b_values (c_f c)) v) as K.
    destruct (vput (b_values (c_f c)) v) as [vs k] eqn:Ev. cbn [fst snd] in *.
    apply grows_asm in G as ((G1 & G2) & O1 & L). cbn in G1, G2. split; [split; [exact G1|eapply pre_trans; eassumption]|].
    split; [exact L|]. right. exists k. pose proof (pre_vfind _ _ _ _ G2 K) as K2. pose proof (vfind_range _ _ _ K2) as R.
    unfold op. unfold oplen in O1. cbn in O1. unfold oplen. rewrite O1, (sx12_small r), (sx12_small k) by lia.
    split; [reflexivity|]. destruct (gnth_in (b_values F) k R) as (v' & Gk). rewrite Gk. f_equal. apply gnth_rd in Gk. rewrite <- Gk. apply vfind_nth. exact K2.
Qed.

Lemma asmb_lit lw n v r c : asmb lw (S (S n)) 0 (S1 EXPR (STup [ValOf v])) r c = Ok (load_value v (u8 (u8 r)) (PN_REG (u8 (u8 r)) (PN_REG (u8 r) c))).
Proof. cbn [asmb]. unfold node, S1, ValOf. cbn [sp s0 tup bind CompileModel.each_i]. unfold asmb. unfold node_value. cbn [s0 s1 is_nil].
  destruct (v =? PN_NIL) eqn:E; cbn [val_of bind]; [replace v with PN_NIL by lia|]; reflexivity. Qed.
Lemma u8_id x : 0 <= x < 256 -> u8 x = x. Proof. intros. unfold u8. rewrite Z.mod_small; lia. Qed.
Section Emit.
  Context {W : Type} (H : host W) (tbl : list pb) (is_str : Z -> bool) (STR0 : Z).
  Context (fid : Z) (F : pb) (cu : Z) (PF : gnth tbl fid = Some F) (SM : small F) (CU : 0 <= cu) (RM : regbase cu F + b_stack F <= 4096).
  Context (a n : Z) (Ha : 0 <= a) (Hn : 0 <= n) (Hrok : a + n + 3 < b_stack F) (Hb : a + n + 3 < 256).
  Context (st0 : list Z).
  Notation star := (star H tbl is_str STR0).
  Notation St st pos w fs := (mkV st cu fid pos w fs).
  Let sreg := a + 2 + n.
  Lemma lit_computes v c fs w : grows (load_value v (sreg + 1) c) F ->
    grows c F /\ oplen (load_value v (sreg + 1) c) = oplen c + 1 /\
    computes H tbl is_str STR0 fid F cu a st0 (sreg + 1) (oplen c) w fs (oplen c + 1) w v.
  Proof.
    intros G. pose proof SM as (_ & Vs & _). destruct (grows_load v (sreg + 1) c F ltac:(unfold sreg; lia) Vs G) as (G0 & L & D).
    split; [exact G0|]. split; [exact L|]. intros st [Ls _].
    pose proof (reg_ge is_str F cu) as Rg. pose proof (zlen_nonneg (b_upvals F)) as Z1. pose proof (zlen_nonneg (b_locals F)) as Z2.
    exists (supd st (regbase cu F + (sreg + 1)) v). split; [|split; [|split]].
    - apply star_one. destruct D as [(Np & O1 & Ev)|(k & O1 & Gk)].
      + rewrite <- Ev. apply x_loadpn; auto. unfold SimStep.rok, sreg. lia.
      + replace v with (znth (b_values F) k) by (apply gnth_rd; exact Gk). pose proof (gnth_Some _ _ _ Gk). apply x_loadk; auto. unfold SimStep.rok, sreg. lia.
    - rewrite zlen_upd by (unfold sreg; lia). exact Ls.
    - apply znth_upd_same. unfold sreg; lia.
    - intros j Hj. apply znth_upd_other; unfold sreg in *; lia.
  Qed.
  (** the arguments of a call with names, each a literal, behind the closure in [a] and the object in [a + 1] *)
  Lemma emit_named lw m fs w : forall args reg c c' reg',
    arg_each (asmb lw (S (S m))) true (a + 1) sreg (map named_tree args) reg c = Ok (c', reg') -> grows c' F ->
    Forall (fun p => PN_IS_PTR (fst p) = true) args -> 0 <= reg -> reg + zlen args < 256 ->
    reg' = reg + zlen args /\ grows c F /\ named_args H tbl is_str STR0 fid F cu a n st0 fs (oplen c) w args (oplen c') w.
  Proof.
    induction args as [|[nm v] args IH]; intros reg c c' reg' E G P R0 R1.
    - cbn [map arg_each] in E. injection E as <- <-. split; [change (zlen (@nil (Z * Z))) with 0; lia|]. split; [exact G|constructor].
    - rewrite zlen_cons in *. pose proof (zlen_nonneg args) as Za. apply Forall_cons_iff in P as [Pn P]. cbn [map arg_each named_tree fst snd] in E, Pn. rewrite asmb_lit, (u8_id (reg + 1)) in E by lia.
      cbn [bind MsgOf S1 sp s0 val_of] in E. change (part_eqb MSG MSG) with true in E. cbn [orb bind val_of s0] in E.
      replace (a + 1 - 1) with a in E by lia. rewrite !(u8_id (sreg + 1)) in E by (unfold sreg; lia). rewrite ?(u8_id (sreg + 1)) in E by (unfold sreg; lia).
      set (c0 := PN_REG (sreg + 1) (PN_REG (sreg + 1) c)) in *. 
      set (c1 := load_value v (sreg + 1) c0) in *. set (c2 := load_value nm sreg c1) in *.
      destruct (IH _ _ _ _ E G P ltac:(lia) ltac:(lia)) as (-> & G3 & NA). clear IH E G. rewrite grows_reg in G3. rewrite oplen_reg in NA.
      apply grows_asm in G3 as (G2 & O3 & L3). rewrite L3 in NA. unfold c2 in G2.
      pose proof SM as (_ & Vs & _). apply grows_load in G2 as (G1 & L2 & D2); [|unfold sreg; lia|exact Vs].
      fold c2 in L2. rewrite L2 in O3, NA. unfold c1 in G1.
      destruct (lit_computes v c0 fs w G1) as (G0 & L1 & Cm). fold c1 in L1.
      unfold c0 in G0. rewrite !grows_reg in G0. split; [lia|]. split; [exact G0|].
      assert (Lc : oplen c0 = oplen c) by (unfold c0; rewrite !oplen_reg; reflexivity). rewrite Lc in Cm, L1.
      destruct D2 as [(Np & _)|(k & O2 & Gk)]; [congruence|]. rewrite L1 in O2, O3, NA.
      eapply na_cons; [exact Cm|exact O2|exact Gk| |].
      + unfold SimStep.op. rewrite O3. fold sreg. rewrite !sx12_small by (unfold sreg; lia). reflexivity.
      + replace (oplen c + 1 + 2) with (oplen c + 1 + 1 + 1) by lia. exact NA.
  Qed.
End Emit.
(** C80: compiled named arguments with literal values. [c]: the compiler in front of the arguments, [c'] behind them,
    [F]: the finished function.  The arguments are in [args], any order; the machine stands in front of them. *)
Theorem C80_compiled : forall W (H : host W) tbl is_str STR0 fid F cu lw m fs st w args l vals cl a c c' reg' minargs w2 r,
  gnth tbl fid = Some F -> small F -> 0 <= cu -> regbase cu F + b_stack F <= 4096 ->
  0 <= a -> a + zlen args + 3 < b_stack F -> a + zlen args + 3 < 256 ->
  (* the code of the call *)
  arg_asmb (asmb lw (S (S m))) (SSrc (S1 LIST (STup (map named_tree args)))) (a + 1) true c = Ok (c', reg') ->
  grows (asm2 O_CALL a reg' c') F -> Forall (fun p => PN_IS_PTR (fst p) = true) args ->
  (* the signature *)
  strings_are_objects is_str -> Forall (item_ok is_str) l -> Forall (plain_default is_str) l -> NoDup (param_names l) ->
  (forall w nm, h_prim H P_sig_find w [cl; nm] = Ok (w, PN_NUM (sig_find is_str (enc l) nm))) ->
  h_kind H w cl = KNative (Some (enc l)) (zlen args) minargs -> minargs <= zlen args -> zlen args = zlen (params l) ->
  (* every parameter is given a value, once *)
  NoDup (map fst args) -> length vals = length (param_names l) ->
  (forall k nm v, nth_error (param_names l) k = Some nm -> nth_error vals k = Some v -> In (nm, v) args) ->
  zlen st = 4096 -> znth st (regbase cu F + a) = cl ->
  h_prim H P_call w (cl :: znth st (regbase cu F + a + 1) :: vals) = Ok (w2, r) ->
  exists st', star H tbl is_str STR0 (mkV st cu fid (oplen c) w fs) (mkV st' cu fid (oplen c' + 1) w2 fs) /\ znth st' (regbase cu F + a) = r /\
              forall j, 0 <= j < regbase cu F + a -> znth st' j = znth st j.
Proof.
  intros W H tbl is_str STR0 fid F cu lw m fs st w args l vals cl a c c' reg' minargs w2 r PF SM CU RM Ha Hr Hb E G Pn SO Hl Hd Nd Hs HK Hm Lp NA Lv HV Z Hc HC.
  pose proof (zlen_nonneg args) as Z0. 
  pose proof (reg_ge is_str F cu) as Rg. pose proof (zlen_nonneg (b_upvals F)) as Z1. pose proof (zlen_nonneg (b_locals F)) as Z2.
  cbn [arg_asmb S1] in E. rewrite (u8_id (a + 1 + _ + 1)) in E by (unfold zlen in *; rewrite map_length; lia).
  replace (zlen (map named_tree args)) with (zlen args) in E by (unfold zlen; rewrite map_length; reflexivity).
  replace (a + 1 + zlen args + 1) with (a + 2 + zlen args) in E by lia.
  apply grows_asm in G as (G & O1 & _).
  destruct (emit_named H tbl is_str STR0 fid F cu PF SM CU RM a (zlen args) Ha Z0 Hr Hb st lw m fs w args (a + 1) c c' reg' E G Pn ltac:(lia) ltac:(lia)) as (-> & _ & NAr).
  eapply (C80_call H tbl is_str STR0 fid F cu PF SM CU RM a (zlen args) Ha Z0 Hr st cl l SO Hl Hd Nd Hs Hc fs st (oplen c) w args (oplen c') w vals minargs w2 r);
    try eassumption; try reflexivity.
  - split; [exact Z|]. intros; reflexivity.
  - unfold SimStep.op. rewrite O1, !sx12_small by lia. reflexivity.
  - symmetry. exact Lp.
Qed.

(** ** In machine code *)
Section Machine.
  Context {W : Type} (X : xhost W) (S0 B Sp : Z) (HB : B mod 8 = 0) (HA16 : Sp mod 16 = 0).
  Context (addr : cfun -> Z) (Haddr : forall f, 0 <= addr f < two64).
  Context (rt : cfun -> W -> list Z -> res (W * Z)).
  Context (HX : forall f w L, length L = 6%nat -> xh_call X w (addr f) L = rt f w (map (fun n => nth n L 0) (apos f))).
  Context (need : Z) (Hneed : 3 <= need < 268435455) (HSp : Sp <= B - need * 8) (HS0 : S0 - B = 8) (HS64 : S0 < two64) (HSp0 : 0 <= Sp).
  (** [r]: where the runtime finds the name.  The value is put there; if the name is unknown,
      the argument is passed over. *)
  Theorem C80_machine : forall a b w M w' r regs d bs, 0 <= a <= 13 -> a < need -> 1 <= b < need ->
    jit_op addr regs need (mkI O_NAMED a b) d = Some bs ->
    rt F_sig_find w [M (B + slot (need - 3)); M (B + slot a); M (B + slot (b - 1))] = Ok (w', r) ->
    (0 <= s32 r -> 0 <= r < 2147483648 /\ a + 2 + r < need) ->
    runs X S0 B Sp bs w M w' (if s32 r <? 0 then M else setm M (B + slot (a + 2 + r)) (M (B + slot b))).
  Proof.
    intros a b w M w' r regs d bs Ha Ha2 Hb E C Hr code pc s A Gs.
    cbn [jit_op ic ia ib] in E. replace (15 <? a + 2) with false in E by lia. injection E as <-.
    refine (named_blk X code S0 B Sp HB HA16 addr Haddr rt HX (fun _ _ _ _ => UB) ltac:(discriminate) need Hneed HSp HS0 HS64 HSp0
      a b pc w M w' r ltac:(lia) ltac:(lia) _ _ _ C _ A s Gs); [unfold inframe, slot; lia..|].
    intros Q. destruct (Hr Q). split; [assumption|]. unfold inframe, slot; lia.
  Qed.
End Machine.
(** From register 14 on the store is one byte short: whatever byte follows belongs to it. *)
Definition far_store (a c : Z) : list Z := [72; 137; 148; 197; RBPB (a + 2); 255; 255; c].
Theorem C80_machine_far_refuted : forall addr regs need a b d, 13 < a ->
  (exists pre, jit_op addr regs need (mkI O_NAMED a b) d = Some (pre ++ [72; 137; 148; 197; RBPB (a + 2); 255; 255])) /\
  forall c rest, dec (far_store a c ++ rest) = Some (XStX (s32 (le_val [RBPB (a + 2); 255; 255; c])), 8).
Proof.
  intros addr regs need a b d Ha. split.
  - eexists. cbn [jit_op ic ia ib]. replace (15 <? a + 2) with true by lia. cbv zeta.
    rewrite !app_assoc. f_equal.
  - intros c rest. unfold far_store. generalize (RBPB (a + 2)). intros e.
    lazy beta iota zeta delta [app dec dec48 take_n Z.eqb Pos.eqb]. reflexivity.
Qed.

(** ** A call that meets the hypotheses: f(y = 5, x = 3) for a function of (x, y) *)
Definition nx : Z := 131072. Definition ny : Z := 131088.
Definition n_prim (l : list item) (p : prim) (w : Z) (args : list Z) : res (Z * Z) :=
  match p, args with
  | P_sig_find, [f; nm] => if f =? CLO then Ok (w, PN_NUM (sig_find Toy.toy_str (enc l) nm)) else UB
  | P_call, [f; self; v1; v2] => Ok (w + 1, PN_NUM (100 * PN_INT v1 + PN_INT v2))
  | _, _ => UB
  end.
Definition n_kind (l : list item) (m w v : Z) : kind := if v =? CLO then KNative (Some (enc l)) 2 m else KOther.
Definition n_host (l : list item) (m : Z) : host Z := mkHost Z (n_prim l) (n_kind l m) (fun _ _ => false) (fun _ v => PN_IS_INT v) (fun _ v => v =? CLO).
Definition n_l : list item := [Param nx Plain; Param ny Plain].
Definition n_args : list (Z * Z) := [(ny, PN_NUM 5); (nx, PN_NUM 3)].
Definition n_c0 : cst := mkC (pb0 [] []) [] [] None.
Definition n_call (args : list (Z * Z)) : cst :=
  match arg_asmb (asmb (fun v => v) 2) (SSrc (S1 LIST (STup (map named_tree args)))) 1 true n_c0 with Ok (c, reg) => asm2 O_CALL 0 reg c | _ => n_c0 end.
Definition n_F : pb := c_f (n_call n_args).
Lemma toy_objects : strings_are_objects Toy.toy_str.
Proof. intros v E. unfold Toy.toy_str in E. apply andb_prop in E as [_ E]. rewrite PN_IS_INT_odd. destruct (Z.odd v) eqn:Ov; [exfalso; apply Z.odd_spec in Ov as [k ->]; lia|reflexivity]. Qed.
Definition n_c1 : cst := Eval vm_compute in (match arg_asmb (asmb (fun v => v) 2) (SSrc (S1 LIST (STup (map named_tree n_args)))) 1 true n_c0 with Ok (c, _) => c | _ => n_c0 end).
Definition n_st : list Z := Eval vm_compute in (CLO :: CLO :: repeat 7 4094).
Lemma n_small : small n_F. Proof. vm_compute. repeat split; congruence. Qed.
Lemma n_code : arg_asmb (asmb (fun v => v) 2) (SSrc (S1 LIST (STup (map named_tree n_args)))) 1 true n_c0 = Ok (n_c1, 3).
Proof. vm_compute. reflexivity. Qed.
Lemma n_grows : grows (asm2 O_CALL 0 3 n_c1) n_F.
Proof. split; exists []; vm_compute; reflexivity. Qed.
Example C80_case : exists st', star (n_host n_l 2) [n_F] Toy.toy_str 0
    (mkV n_st 0 0 0 1 (start_stack [n_F])) (mkV st' 0 0 (oplen n_c1 + 1) 2 (start_stack [n_F])) /\ znth st' 1 = PN_NUM 305.
Proof.
  pose proof (C80_compiled Z (n_host n_l 2) [n_F] Toy.toy_str 0 0 n_F 0 (fun v => v) 0%nat (start_stack [n_F]) n_st 1 n_args n_l
    [PN_NUM 3; PN_NUM 5] CLO 0 n_c0 n_c1 3 2 2 (PN_NUM 305) eq_refl n_small) as T.
  assert (L : length (params n_l) = 2%nat) by reflexivity. 
  destruct T as (st' & A & B & _).
  - lia.
  - apply Z.leb_le. vm_compute. reflexivity.
  - lia.
  - apply Z.ltb_lt. vm_compute. reflexivity.
  - apply Z.ltb_lt. vm_compute. reflexivity.
  - exact n_code.
  - exact n_grows.
  - constructor; [vm_compute; reflexivity|]. constructor; [vm_compute; reflexivity|constructor].
  - exact toy_objects.
  - constructor; [split; [vm_compute; reflexivity|exact Logic.I]|]. constructor; [split; [vm_compute; reflexivity|exact Logic.I]|constructor].
  - constructor; [exact Logic.I|]. constructor; [exact Logic.I|constructor].
  - unfold param_names, params, n_l. cbn [filter is_param map]. constructor; [|constructor; [|constructor]]; cbn [In]; unfold nx, ny; lia.
  - intros w nm. unfold n_host, n_prim. cbn [h_prim]. rewrite Z.eqb_refl. reflexivity.
  - unfold n_host, n_kind. cbn [h_kind]. rewrite Z.eqb_refl. reflexivity.
  - vm_compute. congruence.
  - vm_compute. reflexivity.
  - unfold n_args. cbn [map fst]. constructor; [|constructor; [|constructor]]; cbn [In]; unfold nx, ny; lia.
  - reflexivity.
  - intros k nm v E1 E2. unfold param_names, params, n_l in E1. cbn [filter is_param map] in E1. unfold n_args.
    destruct k as [|[|k]]; cbn [nth_error] in E1, E2; [injection E1 as <-; injection E2 as <-; right; left; reflexivity|injection E1 as <-; injection E2 as <-; left; reflexivity|destruct k; discriminate].
  - vm_compute. reflexivity.
  - vm_compute. reflexivity.
  - vm_compute. reflexivity.
  - exists st'. split; [exact A|]. exact B.
Qed.

(** ** A name the function does not have: the interpreter stops, the machine code goes on without the argument *)
Theorem C80_unknown_refuted : vm1 (named_fun (PN_NUM 8)) [CLO; PN_NUM 400] 20 <> Ok (PN_NUM 400) /\
  (forall v, vm1 (named_fun (PN_NUM 8)) [CLO; PN_NUM 400] 20 <> Ok v) /\
  exists v, rax (machine1 (named_fun (PN_NUM 8)) [CLO; PN_NUM 400] 300) = Ok v.
Proof. split; [vm_compute; discriminate|]. split; [vm_compute; discriminate|]. eexists. vm_compute. reflexivity. Qed.
(** ** Parameters with defaults: f(y = v) for f of (x := 3, y := 4) is called with y = 4, whatever v is,
    and with whatever the register of x holds *)
Definition d_l : list item := [Param nx (Default (PN_NUM 3)); Param ny (Default (PN_NUM 4))].
Definition d_fun (v : Z) : pb := let f := c_f (n_call [(ny, v)]) in mkPb (b_code f ++ [mkI O_RETURN 0 0]) (b_values f) [] [] [] [] [] (b_stack f).
Definition d_run (v junk : Z) : res Z :=
  do r <- vrun (n_host d_l 0) [d_fun v] Toy.toy_str 0 20
    (Ok (SRun (mkV (CLO :: CLO :: 7 :: junk :: repeat 7 4092) 0 0 0 1 (start_stack [d_fun v])))); Ok (snd r).
Theorem C80_default_refuted : d_run (PN_NUM 5) (PN_NUM 77) = Ok (PN_NUM 7704) /\ d_run (PN_NUM 6) (PN_NUM 77) = Ok (PN_NUM 7704) /\ d_run (PN_NUM 5) (PN_NUM 78) = Ok (PN_NUM 7804).
Proof. vm_compute. auto. Qed.
Print Assumptions C80_compiled.
