(** Whole functions: the generated code, run from its first byte, and the
    interpreter, run from potion_vm, return the same. *)
From Coq Require Import ZifyBool.
From Verif Require Import Base Arr GArr WordModel WordProofs NumModel NumProofs AsmModel ObjModel SigModel CompileModel VmModel
  SimStep X86Model JitModel JitProofs JitSem JitLayout JitArith JitSim.
Ltac Zify.zify_post_hook ::= Z.div_mod_to_equations.

(** ** parameter names *)
Section Names.
  Context (is_str : Z -> bool) (Hcol : is_str COLON = false).
  Definition bonus (prev : Z) (rest : list Z) : Z :=
    if (prev =? COLON) && (match rest with v :: _ => is_str v | [] => false end) then 1 else 0.
  Lemma sig_count_eq pre v rest c c' : sig_count is_str (pre ++ v :: rest) (zlen pre) v c = Ok c' ->
    c' = c + (if is_str v then 1 else 0) - bonus v rest.
  Proof.
    unfold sig_count, bonus. destruct (v =? COLON) eqn:E.
    - replace v with COLON by lia. rewrite Hcol. change (PN_IS_INT COLON) with true. cbn [andb].
      unfold rd, inb. destruct ((0 <=? zlen pre + 1) && (zlen pre + 1 <? zlen (pre ++ COLON :: rest))) eqn:L; cbn [bind]; [|discriminate].
      destruct rest as [|w rest].
      { rewrite zlen_app in L. change (zlen [COLON]) with 1 in L. lia. }
      intros [= <-]. replace (znth (pre ++ COLON :: w :: rest) (zlen pre + 1)) with w.
      + destruct (is_str w); lia.
      + change (pre ++ COLON :: w :: rest) with (pre ++ [COLON] ++ w :: rest). rewrite app_assoc.
        unfold znth. rewrite app_nth2; unfold zlen; rewrite app_length; cbn [length]; [|lia].
        replace (Z.to_nat _ - _)%nat with O by lia. reflexivity.
    - rewrite andb_false_r. cbn [andb]. intros [= <-]. destruct (is_str v); lia.
  Qed.
  Lemma rd_mid (pre : list Z) v rest : rd (pre ++ v :: rest) (zlen pre) = Ok v.
  Proof.
    rewrite rd_ok by (rewrite zlen_app, zlen_cons'; pose proof (zlen_nonneg pre); pose proof (zlen_nonneg rest); lia).
    f_equal. unfold znth, zlen. rewrite Nat2Z.id, app_nth2 by lia. rewrite Nat.sub_diag. reflexivity.
  Qed.
  Lemma names_cons prev v rest : jit_names is_str prev (v :: rest) =
    (if is_str v && negb (prev =? COLON) then [v] else []) ++ jit_names is_str v rest.
  Proof. cbn [jit_names]. destruct (is_str v && negb (prev =? COLON)); reflexivity. Qed.
  Lemma arity_gen rest : forall pre prev c r,
    arity_loop is_str (pre ++ rest) (zlen pre) (length rest) c = Ok r ->
    r = c + zlen (jit_names is_str prev rest) + bonus prev rest.
  Proof.
    induction rest as [|v rest IH]; intros pre prev c r.
    - cbn. intros [= <-]. unfold bonus. rewrite andb_false_r. change (zlen (@nil Z)) with 0. lia.
    - cbn [length arity_loop]. rewrite rd_mid. cbn [bind].
      destruct (sig_count is_str (pre ++ v :: rest) (zlen pre) v c) as [c'| |] eqn:E; cbn [bind]; try discriminate.
      apply sig_count_eq in E. intros K. replace (pre ++ v :: rest) with ((pre ++ [v]) ++ rest) in K by (rewrite <- app_assoc; reflexivity).
      replace (zlen pre + 1) with (zlen (pre ++ [v])) in K by (rewrite zlen_app; reflexivity).
      apply (IH _ v) in K. rewrite names_cons, zlen_app. unfold bonus at 1. 
      destruct (is_str v); [|cbn [andb]; rewrite andb_false_r; change (zlen (@nil Z)) with 0; lia].
      destruct (prev =? COLON); cbn [andb negb]; change (zlen [v]) with 1; change (zlen (@nil Z)) with 0; lia.
  Qed.
  Lemma arity_names t r : sig_arity is_str t = Ok r -> r = zlen (jit_names is_str 0 t).
  Proof. intros K. apply (arity_gen t [] 0) in K. unfold bonus in K. change (0 =? COLON) with false in K. cbn [andb] in K. lia. Qed.
  Lemma name_gen rest : forall pre prev m k x,
    name_loop is_str (pre ++ rest) (zlen pre) (length rest) (m - 1 - bonus prev rest) k = Ok x ->
    m <= k < m + zlen (jit_names is_str prev rest) ->
    x = znth (jit_names is_str prev rest) (k - m).
  Proof.
    induction rest as [|v rest IH]; intros pre prev m k x.
    - cbn. change (zlen (@nil Z)) with 0. lia.
    - cbn [length name_loop]. rewrite rd_mid. cbn [bind].
      destruct (sig_count is_str (pre ++ v :: rest) (zlen pre) v (m - 1 - bonus prev (v :: rest))) as [c'| |] eqn:E; cbn [bind]; try discriminate.
      apply sig_count_eq in E. intros K Hk.
      replace (pre ++ v :: rest) with ((pre ++ [v]) ++ rest) in K by (rewrite <- app_assoc; reflexivity).
      replace (zlen pre + 1) with (zlen (pre ++ [v])) in K by (rewrite zlen_app; reflexivity).
      rewrite names_cons in Hk |- *. rewrite zlen_app in Hk. unfold bonus at 1 in E.
      assert (Bn : 0 <= bonus v rest <= 1) by (unfold bonus; match goal with |- context [if ?c then _ else _] => destruct c end; lia).
      assert (Bs : is_str v = true -> bonus v rest = 0).
      { intros Sv. unfold bonus. destruct (v =? COLON) eqn:V; [|reflexivity]. replace v with COLON in Sv by lia. congruence. }
      destruct (is_str v) eqn:Sv.
      + specialize (Bs eq_refl). destruct (prev =? COLON) eqn:Pc; cbn [andb negb app] in *.
        * change (zlen (@nil Z)) with 0 in Hk. replace (c' =? k) with false in K by lia.
          apply (IH (pre ++ [v]) v m); [|lia]. replace (m - 1 - bonus v rest) with c' by lia. exact K.
        * change (zlen [v]) with 1 in Hk. destruct (c' =? k) eqn:Ck.
          { injection K as <-. replace (k - m) with 0 by lia. reflexivity. }
          replace (m - 1 - 0 + 1 - bonus v rest) with (m + 1 - 1 - bonus v rest) in E by lia. rewrite E in K.
          assert (Hx : x = znth (jit_names is_str v rest) (k - (m + 1))).
          { apply (IH _ v (m + 1)) in K; [exact K|lia]. }
          rewrite Hx. unfold znth. replace (Z.to_nat (k - m)) with (S (Z.to_nat (k - (m + 1)))) by lia. reflexivity.
      + cbn [andb app] in *. rewrite andb_false_r in E. change (zlen (@nil Z)) with 0 in Hk. replace (c' =? k) with false in K by lia.
        apply (IH (pre ++ [v]) v m); [|lia]. replace (m - 1 - bonus v rest) with c' by lia. exact K.
  Qed.
  Lemma name_names t k x : sig_name_at is_str t k = Ok x -> 0 <= k < zlen (jit_names is_str 0 t) -> x = znth (jit_names is_str 0 t) k.
  Proof.
    intros K Hk. replace k with (k - 0) by lia. apply (name_gen t [] 0 0 k x); [|lia].
    unfold bonus. change (0 =? COLON) with false. cbn [andb]. exact K.
  Qed.
End Names.

Lemma jsem_defined {W} addr (rt : cfun -> W -> list Z -> res (W * Z)) load nc regs need B i d w M r :
  jsem rt load nc regs need B i w M = Ok r -> exists bs, jit_op addr regs need i d = Some bs.
Proof.
  destruct i as [o a b]. intros J. destruct o; cbn [jit_op ic ia ib]; try (eexists; reflexivity); try discriminate J.
  cbn [jsem ic ia ib] in J. destruct (b - a <=? 4); [eexists; reflexivity|]. rewrite andb_false_r in J. discriminate J.
Qed.
Lemma at_bound code pc bs : at_ code pc bs -> 0 <= pc /\ pc + zlen bs <= zlen code.
Proof.
  intros (pre & post & -> & <-). rewrite !zlen_app. pose proof (zlen_nonneg pre). pose proof (zlen_nonneg post). lia.
Qed.

Lemma rd_inv' l i v : rd l i = Ok v -> 0 <= i < zlen l /\ znth l i = v.
Proof. unfold rd, inb. destruct ((0 <=? i) && (i <? zlen l)) eqn:E; [|discriminate]. intros [= <-]. split; [lia|reflexivity]. Qed.
Lemma wr_inv' l i v l' : wr l i v = Ok l' -> 0 <= i < zlen l /\ l' = upd l i v.
Proof. unfold wr, inb. destruct ((0 <=? i) && (i <? zlen l)) eqn:E; [|discriminate]. intros [= <-]. split; [lia|reflexivity]. Qed.
Section Run.
  Context {W : Type} (H : host W) (X : xhost W).
  Context (tbl : list pb) (is_str : Z -> bool) (STR0 : Z).
  Context (pid : Z) (f : pb) (Hf : proto_at tbl pid = Ok f) (Hup : b_upvals f = []) (Hcol : is_str COLON = false).
  Context (Hword : forall p w l w' v, h_prim H p w l = Ok (w', v) -> wordr v).
  Context (Hvals : forall b v, rd (b_values f) b = Ok v -> wordr v).
  Context (addr : cfun -> Z) (Haddr : forall g, 0 <= addr g < two64).
  Context (rt : cfun -> W -> list Z -> res (W * Z)) (nc : W -> Z -> Z -> list Z -> res (W * Z)) (Pw clw : Z).
  Context (Hnc : forall w p x l r, nc w p x l = Ok r -> native_call X w p x l r).
  Context (HX : forall g w L, length L = 6%nat ->
             xh_call X w (addr g) L = rt g w (map (fun n => nth n L 0) (apos g))).
  Context (Hrt : forall g w args, g <> F_values -> g <> F_fwd -> rt g w (Pw :: args) = rt_spec H g w args).
  Context (Hval : forall w b v, rd (b_values f) b = Ok v ->
    exists vt, rt F_values w [Pw; clw] = Ok (w, vt) /\ xh_load X w (u64 (u64 (vt + (16 + b * 8)) + 0)) = Ok v).
  Context (Htup : forall w t i w' v, h_prim H P_tuple_at w [t; PN_NUM i] = Ok (w', v) ->
    w' = w /\ exists t', rt F_fwd w [t] = Ok (w, t') /\ xh_load X w (u64 (t' + (16 + i * 8))) = Ok v).
  Let regs := b_stack f.
  Let nl := localsize f.
  Let need := regs + nl + 3.
  Context (Hregs : 1 <= regs) (Hneed : need < 268435455).
  Context (code : list Z) (Hcode : zlen code < 2147483648) (Hlen : zlen (b_code f) < two32).
  Context (S0 B Sp : Z) (HB : B mod 8 = 0) (HA16 : Sp mod 16 = 0) (HS0 : S0 - B = 8) (HS64 : S0 < two64) (HSp0 : 0 <= Sp) (HSp : Sp <= B - need * 8).
  Notation step := (step H tbl is_str STR0).
  Notation xs := (xs X code S0).
  Notation rel := (rel pid f Pw clw B).
  Notation returned := (returned X code S0 B Sp).
  Notation G := (G B Sp).

  (** a run of the interpreter inside this function, every operation of which is
      one where both engines agree, up to a RETURN of register 0 *)
  Inductive arun : (Z -> bool) -> vst W -> W -> Z -> Prop :=
  | arun_ret D s b : instr_at f (v_pos s) = Some (mkI O_RETURN 0 b) -> D 0 = true ->
      arun D s (v_w s) (vval f 0 (v_st s) 0)
  | arun_step D s i s' w v : instr_at f (v_pos s) = Some i -> ic i <> O_RETURN -> agree H f nc Pw 0 D s i ->
      (forall nested, step nested s = Ok (SRun s')) ->
      arun (addD D (wrote H f 0 s i)) s' w v -> arun D s w v.

  Lemma nl0 : 0 <= nl. Proof. apply zlen_nonneg. Qed.
  Context (pro : list Z) (Hloop : jit_loop addr regs need (b_code f) 0 pro [] [] = Ok code).
  Notation off := (off addr regs need (b_code f) pro).
  Let nonest : Z -> Z -> list Z -> list Z -> W -> (Z -> Z) -> res (W * (Z -> Z) * Z) := fun _ _ _ _ _ _ => UB.
  (** one operation of the generated code *)
  Lemma jstep_exec pos i (w w' : W) M M' t x : instr_at f pos = Some i ->
    (forall r, jump_of i = Some r -> 0 <= pos + r + 1 < zlen (b_code f)) ->
    jsem rt (xh_load X) nc regs need B i w M = Ok (w', M', t) -> G (off pos) w M x ->
    exists x', xs x x' /\
      match t with
      | JNext => G (off (pos + 1)) w' M' x'
      | JJump => exists r, jump_of i = Some r /\ G (off (pos + r + 1)) w' M' x'
      | JRet v => returned w' M' v x'
      end.
  Proof.
    pose proof nl0 as Hn. destruct (layout addr regs need (b_code f) pro code Hloop) as (dl & Hdl & Hat & rest0 & Epro).
    intros Hi Hj J Gx.
    destruct (jsem_defined addr _ _ _ _ _ _ i (dl pos) _ _ _ J) as (bs & Eb).
    pose proof (Hat _ _ Hi) as At. unfold bytes in At. rewrite Eb in At.
    assert (Lb : zlen bs = blen addr regs need i).
    { rewrite <- (blen_d addr regs need i (dl pos)). unfold bytes. rewrite Eb. reflexivity. }
    pose proof (off_S addr regs need (b_code f) pro pos i Hi) as Os.
    pose proof (at_bound _ _ _ At) as Bd.
    assert (Jd : forall r, jump_of i = Some r -> dl pos = off (pos + r + 1) - off (pos + 1) /\
                  -2147483648 <= dl pos < 2147483648).
    { intros r Jr. assert (Ja : jmp_at (b_code f) pos r) by (exists i; auto).
      pose proof (Hj r Jr) as Tr. rewrite (Hdl _ _ Ja) by lia. unfold disp. split; [reflexivity|].
      destruct (gnth_in (b_code f) (pos + r + 1) Tr) as (i2 & Hi2). pose proof (at_bound _ _ _ (Hat _ _ Hi2)) as Bd2.
      pose proof (zlen_nonneg bs). pose proof (zlen_nonneg (bytes addr regs need i2 (dl (pos + r + 1)))). lia. }
    assert (Hd : exists d, -2147483648 <= d < 2147483648 /\ jit_op addr regs need i d = Some bs /\
                 forall r, jump_of i = Some r -> d = dl pos).
    { destruct (jump_of i) as [r|] eqn:Jr.
      - exists (dl pos). split; [apply (Jd r eq_refl)|]. split; [exact Eb|auto].
      - exists 0. split; [lia|]. split; [rewrite <- Eb; symmetry; apply jop_nojump; exact Jr|discriminate]. }
    destruct Hd as (d & D1 & D2 & D3).
    destruct (jit_op_sem X code S0 B Sp HB HA16 addr Haddr rt HX nc Hnc regs need ltac:(lia) HSp HS0 HS64 HSp0 i d bs _ _ _ _ _ _ D1 D2 At J x Gx) as (x1 & Xs & Af).
    exists x1. split; [exact Xs|]. destruct t as [| |v]; cbn [after] in Af.
    - rewrite Os, <- Lb. exact Af.
    - assert (Jx : exists r, jump_of i = Some r).
      { destruct i as [o a b]. unfold jump_of. destruct o; cbn [jsem ic ia ib] in J |- *; try (eexists; reflexivity); exfalso; clear -J;
        unfold bind in J; repeat match type of J with (match ?c with _ => _ end) = _ => destruct c; try discriminate J end; try discriminate J. }
      destruct Jx as (r & Jr). exists r. split; [exact Jr|]. destruct (Jd r Jr) as [Q1 Q2]. rewrite (D3 r Jr) in Af.
      replace (off (pos + r + 1)) with (off pos + zlen bs + dl pos) by lia. exact Af.
    - exact Af.
  Qed.
  (** running the operations [jsem] from one to the next, to a RETURN *)
  Inductive jrun : Z -> W -> (Z -> Z) -> W -> (Z -> Z) -> Z -> Prop :=
  | jrun_ret pos i (w : W) M (w' : W) M' v : instr_at f pos = Some i -> jump_of i = None ->
      jsem rt (xh_load X) nc regs need B i w M = Ok (w', M', JRet v) -> jrun pos w M w' M' v
  | jrun_next pos i (w : W) M (w1 : W) M1 (w' : W) M' v : instr_at f pos = Some i -> 
      (forall r, jump_of i = Some r -> 0 <= pos + r + 1 < zlen (b_code f)) ->
      jsem rt (xh_load X) nc regs need B i w M = Ok (w1, M1, JNext) -> jrun (pos + 1) w1 M1 w' M' v -> jrun pos w M w' M' v
  | jrun_jump pos i r (w : W) M (w1 : W) M1 (w' : W) M' v : instr_at f pos = Some i -> jump_of i = Some r ->
      0 <= pos + r + 1 < zlen (b_code f) ->
      jsem rt (xh_load X) nc regs need B i w M = Ok (w1, M1, JJump) -> jrun (pos + r + 1) w1 M1 w' M' v -> jrun pos w M w' M' v.
  Theorem jrun_exec pos w M w' M' v : jrun pos w M w' M' v -> forall x, G (off pos) w M x ->
    exists x', xs x x' /\ returned w' M' v x'.
  Proof.
    induction 1 as [pos i w M w' M' v Hi Jn J|pos i w M w1 M1 w' M' v Hi Hj J R IH|pos i r w M w1 M1 w' M' v Hi Jr Hj J R IH]; intros x Gx.
    - assert (Hj : forall r, jump_of i = Some r -> 0 <= pos + r + 1 < zlen (b_code f)) by (intros r Q; congruence).
      destruct (jstep_exec pos i _ _ _ _ _ x Hi Hj J Gx) as (x' & Xs & K). exists x'. auto.
    - destruct (jstep_exec pos i _ _ _ _ _ x Hi Hj J Gx) as (x1 & Xs & K). destruct (IH x1 K) as (x' & Xs' & Rt).
      exists x'. split; [eapply xs_trans; eassumption|exact Rt].
    - assert (Hj' : forall r, jump_of i = Some r -> 0 <= pos + r + 1 < zlen (b_code f))
        by (intros r' Q; replace r' with r by congruence; exact Hj).
      destruct (jstep_exec pos i _ _ _ _ _ x Hi Hj' J Gx) as (x1 & Xs & r' & Jr' & K). replace r' with r in K by congruence. destruct (IH x1 K) as (x' & Xs' & Rt).
      exists x'. split; [eapply xs_trans; eassumption|exact Rt].
  Qed.
  Theorem run_sim D s w v : arun D s w v -> forall M0 M x, rel M0 0 D s M -> G (off (v_pos s)) (v_w s) M x ->
    (exists N fs, forall k, vrun H tbl is_str STR0 (N + k) (Ok (SRun s)) = Ok (w, fs, v)) /\
    exists M' x', xs x x' /\ returned w M' v x' /\ forall ad, B <= ad -> M' ad = M0 ad.
  Proof.
    pose proof nl0 as Hn. destruct (layout addr regs need (b_code f) pro code Hloop) as (dl & Hdl & Hat & rest0 & Epro).
    intros A. induction A as [D s b Hi HD|D s i s' w v Hi Nr Ag St A IH]; intros M0 M x R Gx.
    - destruct (rk is_str nonest pid f Hup Hvals rt (xh_load X) nc Pw clw Hval B M0 0 D s M 0 R HD) as (Q1 & _ & Q3 & Q4); [fold regs; lia|].
      split.
      + exists 2%nat, (v_fs s). intros k. cbn [plus vrun].
        pose proof (gnth_Some _ _ _ Hi) as Hp. unfold VmModel.step. rewrite (r_f _ _ _ _ _ _ _ _ _ _ R), Hf. cbn [bind].
        replace (v_pos s <? zlen (b_code f)) with true by lia. cbn [negb]. rewrite Hi. cbv zeta.
        rewrite (r_cu _ _ _ _ _ _ _ _ _ _ R), Q1. cbn [bind]. cbn [Z.eqb negb]. rewrite Q4. reflexivity.
      + specialize (Hat _ _ Hi). unfold bytes in Hat. cbn [jit_op ic ia ib] in Hat.
        destruct (jit_op_sem X code S0 B Sp HB HA16 addr Haddr rt HX nc Hnc regs need ltac:(lia) HSp HS0 HS64 HSp0 (mkI O_RETURN 0 b) 0
                    (mov_rbp 139 0 ++ [201; 195]) (off (v_pos s)) (v_w s) M (v_w s) M (JRet (M (B + slot 0))) ltac:(lia) eq_refl Hat) with (s := x) as (x' & Xs & Af).
        { cbn [jsem ic ia ib]. fold regs nl need in Q3. rewrite Q3. reflexivity. }
        { exact Gx. }
        exists M, x'. split; [exact Xs|]. split; [rewrite Q4; exact Af|]. apply (r_hi _ _ _ _ _ _ _ _ _ _ R).
    - destruct (sim_step H tbl is_str STR0 nonest pid f Hf Hup Hword Hvals rt (xh_load X) nc Pw clw Hrt Hval ltac:(fold regs; lia) B M0 0 Htup D s M i s' R Hi Hlen Ag (St nonest) Nr)
        as (M1 & t & J & R1 & Nx).
      fold regs nl need in J.
      assert (Hj : forall r, jump_of i = Some r -> 0 <= v_pos s + r + 1 < zlen (b_code f)).
      { intros r Jr. destruct Ag as (Wf & _ & _). unfold wfi in Wf. unfold jump_of in Jr. destruct (ic i); try discriminate Jr;
          apply some_inj in Jr; subst r; lia. }
      destruct (jstep_exec _ _ _ _ _ _ _ x Hi Hj J Gx) as (x1 & Xs & Af).
      assert (G1 : G (off (v_pos s')) (v_w s') M1 x1).
      { destruct t as [| |r]; cbn [nxt] in Nx.
        - rewrite Nx. exact Af.
        - destruct Nx as (r & Jr & ->). destruct Af as (r' & Jr' & Af). replace r with r' by congruence. exact Af.
        - contradiction. }
      destruct (IH M0 M1 x1 R1 G1) as ((N & fs & HN) & M' & x' & Xs' & Rt & Hm).
      split.
      + exists (S N), fs. intros k. cbn [plus vrun]. rewrite St. apply HN.
      + exists M', x'. split; [eapply xs_trans; eassumption|]. split; assumption.
  Qed.

  (** ** entry *)
  Definition arg_slots : list Z :=
    fold_right (fun nm l => match vfind (b_locals f) nm with Some num => (regs + num) :: l | None => l end) []
      (jit_names is_str 0 (b_sig f)).
  Definition D0 : Z -> bool := fun k => existsb (Z.eqb k) (0 :: arg_slots).

  Lemma rel_weak M0 cu D D' (s : vst W) M : rel M0 cu D s M -> (forall k, D' k = true -> D k = true) -> rel M0 cu D' s M.
  Proof. intros [] K. split; auto. Qed.
  Lemma vfind_rng l (v : Z) num : vfind l v = Some num -> 0 <= num < zlen l.
  Proof.
    revert num. induction l as [|x l IH]; intros num; cbn [vfind]; [discriminate|]. rewrite zlen_cons'.
    pose proof (zlen_nonneg l). destruct (x =? v); [intros [= <-]; lia|].
    destruct (vfind l v) as [n|]; [|discriminate]. specialize (IH n eq_refl). intros [= <-]. lia.
  Qed.
  (** the stores of the arguments *)
  Fixpoint pstore (M : Z -> Z) (arg : Z -> Z) (argx : Z) (names : list Z) : Z -> Z :=
    match names with
    | [] => M
    | nm :: ns =>
        pstore (match vfind (b_locals f) nm with Some num => setm M (B + slot (regs + num)) (arg argx) | None => M end)
          arg (argx + 1) ns
    end.
  Lemma params_exec arg names : forall argx pc w M s rest,
    (forall k, 0 <= k < zlen names -> x_r s (argreg (3 + (argx + k))) = arg (argx + k)) ->
    0 <= argx -> argx + zlen names <= 3 ->
    at_ code pc (jit_params regs argx (b_locals f) names ++ rest) -> G pc w M s ->
    exists s', xs s s' /\ G (pc + zlen (jit_params regs argx (b_locals f) names)) w (pstore M arg argx names) s'.
  Proof.
    pose proof nl0 as Hn. induction names as [|nm ns IH]; intros argx pc w M s rest Ha A0 A3 At Gs.
    - cbn [jit_params pstore]. change (zlen (@nil Z)) with 0. rewrite Z.add_0_r. apply finish. exact Gs.
    - cbn [jit_params pstore] in *. rewrite zlen_cons' in Ha, A3. pose proof (zlen_nonneg ns) as Ln.
      destruct (vfind (b_locals f) nm) as [num|] eqn:V.
      + apply vfind_rng in V. change (zlen (b_locals f)) with nl in V.
        rewrite argi_enc in At |- * by lia. rewrite <- app_assoc in At.
        assert (Gq : gpr (argreg (3 + argx)) = true).
        { unfold argreg. repeat match goal with |- context [if ?c then _ else _] => destruct c; [reflexivity|] end. reflexivity. }
        destruct s as [pc0 R fl m w0]. destruct Gs as [g1 g2 g3 g4 g5]. cbn [x_pc x_r x_f x_m x_w] in *. subst pc0 w0.
        eapply (st1 X code S0 B Sp HB addr rt HX nc Hnc (argreg (3 + argx)) (regs + num)); [exact Gq| |exact g2|exact At|].
        { unfold inframe, slot. lia. }
        intros At2. rewrite zlen_app, Z.add_assoc.
        apply (IH (argx + 1) _ w _ _ rest).
        * intros k Hk. cbn [x_r]. replace (argx + 1 + k) with (argx + (k + 1)) by lia. apply Ha. lia.
        * lia.
        * lia.
        * exact At2.
        * split; cbn [x_pc x_r x_f x_m x_w]; auto. intros ad L. unfold setm.
          destruct (ad =? B + slot (regs + num)); [|apply g5; exact L].
          specialize (Ha 0 ltac:(lia)). rewrite Z.add_0_r in Ha. exact Ha.
      + change ([] ++ jit_params regs (argx + 1) (b_locals f) ns) with (jit_params regs (argx + 1) (b_locals f) ns) in *.
        apply (IH (argx + 1) pc w M s rest); [|lia|lia|exact At|exact Gs].
        intros k Hk. replace (argx + 1 + k) with (argx + (k + 1)) by lia. apply Ha. lia.
  Qed.

  Definition slots_of (names : list Z) : list Z :=
    fold_right (fun nm l => match vfind (b_locals f) nm with Some num => (regs + num) :: l | None => l end) [] names.
  Lemma copy_sim M0 l arg (w : W) fs names : forall argx D st st' M,
    (forall k x, 0 <= k < zlen names -> sig_name_at is_str (b_sig f) (argx + k) = Ok x -> x = znth names k) ->
    (forall k v, 0 <= k < zlen names -> rd l (argx + k) = Ok v -> arg (argx + k) = v /\ wordr v) ->
    copy_args is_str f (0 + upvalsize f) (ATuple l) argx (length names) st = Ok st' ->
    rel M0 0 D (mkV st 0 pid 0 w fs) M ->
    rel M0 0 (addD D (slots_of names)) (mkV st' 0 pid 0 w fs) (pstore M arg argx names).
  Proof.
    pose proof nl0 as Hn. induction names as [|nm ns IH]; intros argx D st st' M Hnm Ha E R.
    - cbn in E. injection E as <-. cbn [slots_of fold_right pstore]. eapply rel_weak; [exact R|]. auto.
    - cbn [length copy_args] in E. rewrite zlen_cons' in Hnm, Ha. pose proof (zlen_nonneg ns) as Ln.
      destruct (sig_name_at is_str (b_sig f) argx) as [x| |] eqn:Ex; cbn [bind] in E; try discriminate E.
      assert (x = nm) as ->.
      { specialize (Hnm 0 x ltac:(lia)). rewrite Z.add_0_r in Hnm. apply Hnm in Ex. exact Ex. }
      cbn [pstore slots_of fold_right]. fold (slots_of ns).
      assert (Hnm' : forall k x, 0 <= k < zlen ns -> sig_name_at is_str (b_sig f) (argx + 1 + k) = Ok x -> x = znth ns k).
      { intros k x Hk Q. replace (argx + 1 + k) with (argx + (k + 1)) in Q by lia. apply Hnm in Q; [|lia]. rewrite Q.
        unfold znth. replace (Z.to_nat (k + 1)) with (S (Z.to_nat k)) by lia. reflexivity. }
      assert (Ha' : forall k v, 0 <= k < zlen ns -> rd l (argx + 1 + k) = Ok v -> arg (argx + 1 + k) = v /\ wordr v).
      { intros k v Hk. replace (argx + 1 + k) with (argx + (k + 1)) by lia. apply Ha. lia. }
      destruct (vfind (b_locals f) nm) as [num|] eqn:V.
      + apply vfind_rng in V. change (zlen (b_locals f)) with nl in V. cbn [arg_at] in E.
        destruct (rd l argx) as [v| |] eqn:Ev; cbn [bind] in E; try discriminate E.
        destruct (wr st (0 + upvalsize f + num) v) as [st1| |] eqn:Ew; cbn [bind] in E; try discriminate E.
        specialize (Ha 0 v ltac:(lia)). rewrite Z.add_0_r in Ha. destruct (Ha Ev) as [Q1 Q2].
        rewrite (locb is_str nonest f Hup Hvals rt (xh_load X) nc Pw clw Hval B M0 0 num ltac:(lia)) in Ew.
        eapply rel_weak.
        * apply (IH (argx + 1) (addD D [regs + num]) st1 st' _ Hnm' Ha' E). rewrite Q1.
          apply (rel_set H is_str nonest pid f Hword Hvals rt (xh_load X) nc Pw clw Hrt Hval B M0 0 D (mkV st 0 pid 0 w fs) M (regs + num) v st1 0 w fs R); [fold regs nl; lia|exact Q2|exact Ew].
        * intros k. unfold addD. cbn [existsb]. rewrite orb_false_r. destruct (k =? regs + num); cbn [orb]; [intros _; apply orb_true_r|]. auto.
      + apply (IH (argx + 1) D st st' M Hnm' Ha' E R).
  Qed.

  Context (protoargs : Z) (Hpa : 0 <= protoargs) (Hbig : need + protoargs < 268435454)
          (HSpE : Sp = B - Z.land ((need + protoargs) * 8 + 15) (-16)).
  Lemma land16 x : Z.land x (-16) = x - x mod 16.
  Proof.
    change (-16) with (Z.lnot (Z.ones 4)). rewrite <- Z.ldiff_land, Z.ldiff_ones_r by lia.
    rewrite Z.shiftl_mul_pow2, Z.shiftr_div_pow2 by lia. change (2 ^ 4) with 16. lia.
  Qed.
  Definition M_entry (m0 : Z -> Z) (bp self : Z) : Z -> Z :=
    setm (setm (setm (setm (setm m0 B bp) (B + slot (need - 3)) Pw) (B + slot (need - 2)) clw) (B + slot (need - 1)) self) (B + slot 0) self.
  Lemma prologue_exec names arg self x rest :
    at_ code 0 (jit_prologue regs need protoargs (b_locals f) names ++ rest) -> zlen names <= 3 ->
    x_pc x = 0 -> x_r x RSP = S0 -> x_r x RDI = Pw -> x_r x RSI = clw -> x_r x RDX = self ->
    (forall k, 0 <= k < zlen names -> x_r x (argreg (3 + k)) = arg k) ->
    exists x', xs x x' /\ G (zlen (jit_prologue regs need protoargs (b_locals f) names)) (x_w x)
                 (pstore (M_entry (x_m x) (x_r x RBP) self) arg 0 names) x'.
  Proof.
    pose proof nl0 as Hn. intros At L3 Epc Esp Edi Esi Edx Ea. unfold jit_prologue in *.
    set (rsp := Z.land ((need + protoargs) * 8 + 15) (-16)) in *.
    assert (Hr : 0 <= rsp < 2147483648) by (unfold rsp; rewrite land16; lia).
    destruct x as [pc0 R fl m w]. cbn [x_pc x_r x_f x_m x_w] in *. subst pc0.
    rewrite !argi_enc in * by lia. change (argreg 0) with RDI in *. change (argreg 1) with RSI in *. change (argreg 2) with RDX in *.
    set (subb := if 128 <=? rsp then [72; 129; 236] ++ ASMI rsp else [72; 131; 236; rsp]) in *.
    change ([85; 72; 137; 229] ++ subb ++ ?z) with ([85] ++ [72; 137; 229] ++ subb ++ z) in *.
    rewrite <- !app_assoc in At.
    assert (Eb : u64 (S0 - 8) = B) by (unfold u64, two64 in *; lia).
    eapply step1; [exact At|intros r; reflexivity| |].
    { cbn [exec x_pc x_r x_f x_m x_w]. rewrite Esp, Eb. replace (B mod 8 =? 0) with true by lia. reflexivity. }
    clear At. intros At. change (0 + zlen [85]) with 1 in *.
    eapply step1; [exact At|intros r; reflexivity|cbn [exec x_pc x_r x_f x_m x_w]; reflexivity|].
    clear At. intros At.
    assert (Ds : decs subb (XSubSp rsp)).
    { unfold subb. destruct (128 <=? rsp) eqn:E; [apply decs_subsp32; lia|apply decs_subsp8; lia]. }
    eapply step1; [exact At|exact Ds|cbn [exec x_pc x_r x_f x_m x_w]; reflexivity|].
    clear At. intros At.
    assert (F : forall r, 0 <= r < need -> inframe B Sp r) by (intros r Hq; unfold inframe, slot; lia).
    eapply (st1 X code S0 B Sp HB addr rt HX nc Hnc RDI (need - 3)); [reflexivity|apply F; lia|reflexivity|exact At|].
    clear At. intros At.
    eapply (st1 X code S0 B Sp HB addr rt HX nc Hnc RSI (need - 2)); [reflexivity|apply F; lia|reflexivity|exact At|].
    clear At. intros At.
    eapply (st1 X code S0 B Sp HB addr rt HX nc Hnc RDX (need - 1)); [reflexivity|apply F; lia|reflexivity|exact At|].
    clear At. intros At.
    eapply (st1 X code S0 B Sp HB addr rt HX nc Hnc RDX 0); [reflexivity|apply F; lia|reflexivity|exact At|].
    clear At. intros At.
    match goal with |- exists s', xs ?s _ /\ _ => 
      destruct (params_exec arg names 0 (x_pc s) w (x_m s) s rest) as (s' & Xs & Gs) end.
    - intros k Hk. cbn [x_r]. rewrite !Z.add_0_l. rewrite <- (Ea k Hk). unfold argreg.
      repeat match goal with |- context [if ?c then _ else _] => destruct c; [reflexivity|] end. reflexivity.
    - lia.
    - lia.
    - exact At.
    - split; cbn [x_pc x_r x_f x_m x_w]; auto.
      cbn [setr reg_eqb]. unfold u64, two64 in *. lia.
    - exists s'. split; [exact Xs|]. cbn [x_pc x_m] in Gs. rewrite !zlen_app. 
      cbn [setr reg_eqb] in Gs. rewrite Edi, Esi, Edx, ?Eb, ?Esp in Gs.
      change (zlen [85]) with 1. rewrite <- !Z.add_assoc in Gs. exact Gs.
  Qed.

  Notation names := (jit_names is_str 0 (b_sig f)).
  (** the generated function alone *)
  Theorem whole_jit self arg x w' M' v :
    pro = jit_prologue regs need protoargs (b_locals f) names -> zlen names <= 3 ->
    x_pc x = 0 -> x_r x RSP = S0 -> x_r x RDI = Pw -> x_r x RSI = clw -> x_r x RDX = self ->
    (forall k, 0 <= k < zlen names -> x_r x (argreg (3 + k)) = arg k) ->
    jrun 0 (x_w x) (pstore (M_entry (x_m x) (x_r x RBP) self) arg 0 names) w' M' v ->
    exists n x', xrun X code S0 n x = Ok x' /\ x_r x' RAX = v /\ x_w x' = w' /\ x_r x' RSP = S0 /\ x_r x' RBP = M' B /\
      forall ad, S0 <= ad -> x_m x' ad = M' ad.
  Proof.
    intros Ep L3 P1 P2 P3 P4 P5 Ha J. pose proof nl0 as Hn.
    destruct (layout addr regs need (b_code f) pro code Hloop) as (dl & Hdl & Hat & rest0 & Epro).
    assert (At0 : at_ code 0 (jit_prologue regs need protoargs (b_locals f) names ++ rest0)).
    { rewrite <- Ep. exists [], []. rewrite app_nil_r. split; [exact Epro|reflexivity]. }
    destruct (prologue_exec names arg self x rest0 At0 L3 P1 P2 P3 P4 P5 Ha) as (x1 & Xs1 & G1).
    assert (O0 : off 0 = zlen (jit_prologue regs need protoargs (b_locals f) names)).
    { unfold JitLayout.off. rewrite Ep. unfold tlen. change (Z.to_nat 0) with O. cbn [emit firstn]. change (zlen (@nil Z)) with 0. lia. }
    rewrite <- O0 in G1. destruct (jrun_exec _ _ _ _ _ _ J x1 G1) as (x2 & Xs2 & T1 & T2 & T3 & T4 & T5 & T6).
    destruct (xs_trans X code S0 _ _ _ Xs1 Xs2) as (n & Hx).
    exists (n + 1)%nat, x2. rewrite Hx. cbn [xrun]. rewrite T1. repeat (split; [auto; fail|]). intros ad L. apply T6. lia.
  Qed.
  Lemma enter_rel self args (w : W) fs s0 m bp arg : wordr self ->
    vm_start tbl is_str pid self (match args with Some l => ATuple l | None => ANone end) [] w fs = Ok (SRun s0) ->
    match args with
    | Some l => forall k v, 0 <= k < zlen names -> rd l k = Ok v -> arg k = v /\ wordr v
    | None => names = []
    end ->
    rel (setm m B bp) 0 D0 s0 (pstore (M_entry m bp self) arg 0 names) /\ v_pos s0 = 0 /\ v_w s0 = w.
  Proof.
    pose proof nl0 as Hn. intros Ws E Ha. unfold vm_start, enter in E.
    destruct (STACK_MAX <=? 0) eqn:E0; [discriminate E|]. clear E0.
    rewrite Hf in E. cbn [bind] in E. set (st0 := repeat 0 (Z.to_nat STACK_MAX)) in *. clearbody st0.
    assert (Rb : regbase 0 f = nl + 1).
    { unfold regbase, upvalsize. rewrite Hup. change (zlen (@nil Z)) with 0. fold nl. lia. }
    rewrite Rb in E. replace (nl + 1 - 1) with nl in E by lia.
    destruct (wr st0 nl self) as [st1| |] eqn:E1; cbn [bind] in E; try discriminate E.
    destruct (wr st1 (nl + 1) self) as [st2| |] eqn:E2; cbn [bind copy_ups] in E; try discriminate E.
    apply wr_inv' in E1 as [B1 ->]. apply wr_inv' in E2 as [B2 ->]. rewrite zlen_upd in B2 by lia.
    assert (L1 : zlen (upd st0 nl self) = zlen st0) by (apply zlen_upd; lia).
    assert (L2 : zlen (upd (upd st0 nl self) (nl + 1) self) = zlen st0) by (rewrite zlen_upd; lia).
    assert (R0 : rel (setm m B bp) 0 (fun k => k =? 0) (mkV (upd (upd st0 nl self) (nl + 1) self) 0 pid 0 w fs) (M_entry m bp self)).
    { unfold M_entry.
      assert (Ne : forall j k v (q : Z -> Z), j <> k -> setm q (B + slot j) v (B + slot k) = q (B + slot k)).
      { intros j k v q N. unfold setm. destruct (B + slot k =? B + slot j) eqn:Q; [|reflexivity]. exfalso. apply N. unfold slot in Q. lia. }
      assert (Eq : forall k v (q : Z -> Z), setm q (B + slot k) v (B + slot k) = v) by (intros; unfold setm; rewrite Z.eqb_refl; reflexivity).
      split; cbn [v_f v_cu v_st]; auto.
      - intros k Hk Dk. assert (k = 0) as -> by lia. rewrite Eq. split; [|exact Ws].
        unfold vloc. fold regs nl. replace (0 <? regs) with true by lia. rewrite rd_ok by lia.
        replace (0 + nl + 1 + 0) with (nl + 1) by lia. rewrite znth_upd_same by lia. reflexivity.
      - fold regs nl need. rewrite Ne by lia. rewrite Eq. split; [|exact Ws].
        rewrite rd_ok by lia. rewrite znth_upd by lia.
        replace (nl + 1 =? 0 + nl) with false by lia. replace (0 + nl) with nl by lia. rewrite znth_upd_same by lia. reflexivity.
      - fold regs nl need. rewrite !Ne by lia. rewrite Eq. reflexivity.
      - fold regs nl need. rewrite !Ne by lia. rewrite Eq. reflexivity.
      - intros ad L. assert (Hs : forall k, 0 <= k -> ad =? B + slot k = false) by (intros k Hk; unfold slot; lia).
        unfold setm at 1 2 3 4. rewrite !Hs by lia. reflexivity. }
    destruct args as [l|].
    - destruct (sig_arity is_str (b_sig f)) as [ar| |] eqn:Ear; cbn [bind] in E; try discriminate E.
      apply (arity_names is_str Hcol) in Ear. subst ar.
      replace (Z.to_nat (zlen names)) with (length names) in E by (unfold zlen; lia).
      destruct (copy_args is_str f (0 + upvalsize f) (ATuple l) 0 (length names) (upd (upd st0 nl self) (nl + 1) self)) as [st'| |] eqn:Ec;
        cbn [bind] in E; try discriminate E.
      injection E as <-. cbn [v_pos v_w]. split; [|split; reflexivity].
      eapply rel_weak.
      + eapply (copy_sim _ l arg w fs names 0 _ _ st' _ _ _ Ec R0).
      + intros k. unfold D0, addD. cbn [existsb]. intros K. rewrite orb_comm. exact K.
      Unshelve.
      * intros k x Hk Q. apply (name_names is_str Hcol); [exact Q|lia].
      * intros k v Hk Q. apply Ha; [lia|exact Q].
    - cbn [bind] in E. injection E as <-. cbn [v_pos v_w]. split; [|split; reflexivity].
      rewrite Ha. cbn [pstore]. eapply rel_weak; [exact R0|]. intros k. unfold D0, arg_slots. rewrite Ha. cbn. rewrite orb_false_r. auto.
  Qed.

  Theorem whole self args (w : W) fs s0 x w' v : wordr self ->
    pro = jit_prologue regs need protoargs (b_locals f) names -> zlen names <= 3 ->
    x_pc x = 0 -> x_r x RSP = S0 -> x_r x RDI = Pw -> x_r x RSI = clw -> x_r x RDX = self -> x_w x = w ->
    match args with
    | Some l => forall k, 0 <= k < zlen names -> x_r x (argreg (3 + k)) = znth l k /\ wordr (znth l k)
    | None => names = []
    end ->
    vm_start tbl is_str pid self (match args with Some l => ATuple l | None => ANone end) [] w fs = Ok (SRun s0) ->
    arun D0 s0 w' v ->
    (exists N fs', forall k, potion_vm H tbl is_str STR0 (N + k) pid self args [] w fs = Ok (w', fs', v)) /\
    exists n x', xrun X code S0 n x = Ok x' /\ x_r x' RAX = v /\ x_w x' = w' /\ x_r x' RSP = S0 /\ x_r x' RBP = x_r x RBP /\
      forall ad, S0 <= ad -> x_m x' ad = x_m x ad.
  Proof.
    intros Ws Ep L3 P1 P2 P3 P4 P5 P6 Ha E A. pose proof nl0 as Hn.
    destruct (layout addr regs need (b_code f) pro code Hloop) as (dl & Hdl & Hat & rest0 & Epro).
    assert (At0 : exists rest, at_ code 0 (jit_prologue regs need protoargs (b_locals f) names ++ rest)).
    { rewrite <- Ep. exists rest0. exists [], []. rewrite app_nil_r. split; [exact Epro|reflexivity]. }
    destruct At0 as (rest & At0).
    set (arg := fun k => x_r x (argreg (3 + k))).
    destruct (prologue_exec names arg self x rest At0 L3 P1 P2 P3 P4 P5) as (x1 & Xs1 & G1); [reflexivity|].
    destruct (enter_rel self args w fs s0 (x_m x) (x_r x RBP) arg Ws E) as (R & Q1 & Q2).
    { destruct args as [l|]; [|exact Ha]. intros k v0 Hk Q. destruct (Ha k Hk) as [Q3 Q4].
      apply rd_inv' in Q as [_ <-]. split; [exact Q3|exact Q4]. }
    assert (O0 : off 0 = zlen (jit_prologue regs need protoargs (b_locals f) names)).
    { unfold JitLayout.off. rewrite Ep. unfold tlen. change (Z.to_nat 0) with O. cbn [emit firstn]. change (zlen (@nil Z)) with 0. lia. }
    rewrite P6 in G1. rewrite <- O0 in G1.
    assert (G2 : G (off (v_pos s0)) (v_w s0) (pstore (M_entry (x_m x) (x_r x RBP) self) arg 0 names) x1) by (rewrite Q1, Q2; exact G1).
    destruct (run_sim D0 s0 w' v A _ _ x1 R G2) as ((N & fs' & HN) & M' & x2 & Xs2 & Rt & Hm).
    split.
    - exists N, fs'. intros k. unfold potion_vm. rewrite E. apply HN.
    - destruct (xs_trans X code S0 _ _ _ Xs1 Xs2) as (n & Hx). destruct Rt as (T1 & T2 & T3 & T4 & T5 & T6).
      exists (n + 1)%nat, x2. rewrite Hx. cbn [xrun]. rewrite T1. split; [reflexivity|].
      split; [exact T2|]. split; [exact T3|]. split; [exact T4|]. split.
      + rewrite T5, Hm by lia. unfold setm. rewrite Z.eqb_refl. reflexivity.
      + intros ad L. rewrite T6 by lia. rewrite Hm by lia. unfold setm. replace (ad =? B) with false by lia. reflexivity.
  Qed.
End Run.
