(** Calls, returns and the creation of closures. *)
From Verif Require Import Base Arr GArr WordModel NumModel AsmModel SigModel CompileModel VmModel SrcSpec CompileProofs CompileEq CompileExt CodeGen GenLem GenOk SimStep SimBase.
From Coq Require Import ZifyBool.
Ltac Zify.zify_post_hook ::= Z.div_mod_to_equations.

Lemma truth_test v : truth v = PN_TEST v.
Proof. unfold truth, PN_TEST. apply andb_comm. Qed.
Lemma sig_check_all minargs n : minargs <= n -> sig_check minargs n n = false.
Proof. unfold sig_check. intros. destruct (n >? 0); [|reflexivity]. destruct (n <? minargs) eqn:E; lia. Qed.

Section Call.
Context {W : Type} (H : host W) (tbl : list pb) (is_str : Z -> bool) (STR0 M : Z).
Context (funs : Z -> option (list Z * exps)) (capt : Z -> list Z).
Context (TO : tbl_ok tbl M).
Context (HT : forall l ps b, funs l = Some (ps, b) -> fun_ok tbl (l, (ps, b)) /\ names is_str ps)
        (HC : forall l, capt l = ups tbl l)
        (HL : (forall w v, h_isref H w v = false) \/
              forall l ps b g, funs l = Some (ps, b) -> gnth tbl l = Some g -> b_locals g = ps).
Local Notation star := (star H tbl is_str STR0).
Local Notation run1 := (run1 H tbl is_str STR0).
Local Notation inv := (inv H).
Local Notation ok := (ok H tbl is_str STR0).
Local Notation stop := (stop H tbl is_str STR0).
Local Notation post := (post H tbl is_str STR0).
Local Notation fok := (fok tbl M).
Local Notation fsok := (fsok tbl).

(** running the body of a function in a new frame *)
Definition body_ok (n : nat) : Prop := forall d q st fs w E cv b res,
  fok q d -> has (b_code (fr_f q)) 0 (gens tbl (fr_f q) b 0 0 0 0) -> gok_all tbl (fr_f q) b -> need_all b < b_stack (fr_f q) ->
  size_all tbl b <= zlen (b_code (fr_f q)) -> inv q st E -> fsok fs -> (forall v, cv = Some v -> znth st (fr_reg q + 0) = v) ->
  evals H funs capt n d (fr_self q) (fr_u q) w E cv b = Ok res ->
  post q 0 st 0 w fs (size_all tbl b) (keeps_all b) 0 0 res.

Section Frame.
Context (q : frame) (d : nat) (FO : fok q d).
Local Notation F := (fr_f q).
Local Notation cu := (fr_cu q).
Local Notation nu := (fr_nu q).
Local Notation reg := (fr_reg q).

Lemma st_ok : 0 <= b_stack F -> 0 < reg /\ cu + nu + zlen (b_locals F) + 1 = reg /\ 0 <= nu /\ 0 <= cu /\ reg + b_stack F + 2 <= cu + M /\ cu + M <= 4088.
Proof.
  intros B. pose proof (f_reg q). destruct (f_nonneg tbl M q d FO) as (N1 & N2 & N3). destruct (f_room tbl is_str M q d TO FO B). lia.
Qed.

(** the frame of a function called from [q] *)
Definition callee (pid : Z) (g : pb) (slf : Z) (us : list Z) : frame :=
  mkFr pid g (reg + b_stack F + 2) slf (bind_names (b_upvals g) us (fun _ => None)).

Lemma callee_ok d' pid g slf us : d = S d' -> gnth tbl pid = Some g -> truth slf = true -> 0 <= b_stack F -> fok (callee pid g slf us) d'.
Proof.
  intros ED G T0 B. pose proof (st_ok B) as K. destruct FO as (A & CU & R & _). rewrite ED in R. split; [exact G|]. cbn [fr_cu callee fr_self]. 
  split; [lia|]. split; [nia|exact T0].
Qed.

(** vm.c 816-869 and 635-664: from the call to the first instruction of the callee *)
Lemma enter_sim d' st pos (w : W) fs pid g ps b slf vs us ar a : d = S d' -> 
  funs pid = Some (ps, b) -> gnth tbl pid = Some g -> truth slf = true -> fsok fs ->
  zlen st = 4096 -> 0 <= pos -> rok F a -> rok F (a + 1 + zlen vs) -> zlen ps = zlen vs -> zlen us = zlen (b_upvals g) ->
  (forall i, 0 <= i < zlen vs -> znth st (reg + (a + 2 + i)) = znth vs i) ->
  ar = AStack (reg + a + 2) ->
  exists st', enter tbl is_str (supd (supd st (reg + b_stack F + 2 - 2) (fr_id q)) (reg + b_stack F + 2 - 1) pos)
       (reg + b_stack F + 2) pid slf us ar w fs = Ok (SRun (St (callee pid g slf us) st' 0 w fs))
    /\ inv (callee pid g slf us) st' (bind_names ps vs (fun _ => None))
    /\ znth st' (fr_reg (callee pid g slf us) + 0) = slf
    /\ znth st' (reg + b_stack F + 2 - 2) = fr_id q /\ znth st' (reg + b_stack F + 2 - 1) = pos
    /\ forall i, 0 <= i < reg + b_stack F -> znth st' i = znth st i.
Proof.
  intros ED FN G T0 FS Z PP RA RB ZP ZU VS ->.
  destruct (HT _ _ _ FN) as ((g' & G' & HC1 & ZC & GK & ND & SG & PR & NP & DS) & NM). rewrite G in G'. injection G' as <-.
  unfold rok in *. pose proof (st_ok ltac:(lia)) as K.
  pose proof (callee_ok d' pid g slf us ED G T0 ltac:(lia)) as FO'.
  destruct (proj1 (proj2 need_nonneg) b) as (NN & _).
  assert (B' : 0 <= b_stack g) by lia.
  destruct (f_room tbl is_str M _ _ TO FO' B') as (K1 & K2).
  pose proof (f_reg (callee pid g slf us)) as K3. destruct (f_nonneg tbl M _ _ FO') as (_ & N2 & N3).
  unfold fr_nu in *. cbn [callee fr_cu fr_f] in *.
  set (cu' := reg + b_stack F + 2) in *. set (reg' := fr_reg (callee pid g slf us)) in *.
  assert (ZL : zlen ps <= zlen (b_locals g)). { destruct PR as (t & ->). rewrite zlen_app. pose proof (zlen_nonneg t). lia. }
  unfold enter. replace (STACK_MAX <=? cu') with false by (unfold STACK_MAX; lia).
  unfold proto_at, grd. rewrite G. cbn [bind]. cbv zeta. change (regbase cu' g) with reg'. 
  pose proof (zlen_nonneg vs) as ZV.
  set (s2 := supd (supd st (cu' - 2) (fr_id q)) (cu' - 1) pos).
  assert (Z2 : zlen s2 = 4096) by (unfold s2; rewrite !zlen_upd; rewrite ?zlen_upd; lia).
  rewrite wr_ok by lia. cbn [bind]. rewrite wr_ok by (rewrite zlen_upd; lia). cbn [bind].
  set (s4 := supd (supd s2 (reg' - 1) slf) reg' slf).
  assert (Z4 : zlen s4 = 4096) by (unfold s4; rewrite !zlen_upd; rewrite ?zlen_upd; lia).
  destruct (copy_ups_ok us s4 cu') as (s5 & E5 & Z5 & Q5); [lia|lia|]. rewrite E5. cbn [bind].
  rewrite SG. rewrite arity_names by exact NM. cbn [bind].
  destruct (copy_args_ok is_str g ps (cu' + upvalsize g) (reg + a + 2) s5 NM SG PR NP) as (s6 & E6 & Z6 & Q6); [lia|unfold upvalsize; lia|unfold upvalsize; lia|].
  rewrite E6. cbn [bind]. exists s6.
  unfold upvalsize in Q6.
  assert (P4 : forall i, 0 <= i < cu' - 2 -> znth s4 i = znth st i).
  { intros i I. unfold s4, s2. rewrite !znth_upd_other; rewrite ?zlen_upd; rewrite ?zlen_upd; rewrite ?zlen_upd; lia. }
  assert (P5 : forall i, 0 <= i < cu' -> znth s5 i = znth s4 i).
  { intros i I. rewrite Q5 by lia. replace (cu' <=? i) with false by lia. reflexivity. }
  split; [reflexivity|]. split; [|split; [|split; [|split]]].
  - split; [lia|]. split; [|split].
    + cbn [callee fr_self]. fold reg'. rewrite Q6 by lia. replace (reg' - 1 <? cu' + zlen (b_upvals g) + zlen ps) with false by lia. rewrite andb_false_r.
      rewrite Q5 by lia. replace (reg' - 1 <? cu' + zlen us) with false by lia. rewrite andb_false_r.
      unfold s4. rewrite znth_upd_other; [|rewrite zlen_upd; lia|lia|lia]. apply znth_upd_same; lia.
    + change (fr_nu (callee pid g slf us)) with (zlen (b_upvals g)). cbn [callee fr_f fr_cu]. intros x i V. rewrite bind_names_find by exact ZP. fold cu'.
      destruct (vfind ps x) as [j|] eqn:VP.
      * pose proof (vfind_range _ _ _ VP) as R. pose proof (pre_vfind _ _ _ _ PR VP) as V2. rewrite V in V2. injection V2 as ->.
        rewrite Q6 by lia. replace ((cu' + zlen (b_upvals g) <=? cu' + zlen (b_upvals g) + j) && (cu' + zlen (b_upvals g) + j <? cu' + zlen (b_upvals g) + zlen ps)) with true by lia.
        rewrite P5 by lia. rewrite P4 by lia. rewrite <- VS by lia. f_equal. lia.
      * intros w0. destruct HL as [HL1|HL1]; [apply HL1|]. rewrite (HL1 _ _ _ _ FN G), VP in V. discriminate.
    + cbn [callee fr_f fr_cu fr_u]. intros x. rewrite bind_names_find by lia. fold cu'. destruct (vfind (b_upvals g) x) as [i|] eqn:V; [|reflexivity].
      apply vfind_range in V. f_equal. rewrite Q6 by lia. replace (cu' + zlen (b_upvals g) <=? cu' + i) with false by lia. cbn [andb].
      rewrite Q5 by lia. replace ((cu' <=? cu' + i) && (cu' + i <? cu' + zlen us)) with true by lia. f_equal. lia.
  - fold reg'. rewrite Q6 by lia. replace (reg' + 0 <? cu' + zlen (b_upvals g) + zlen ps) with false by lia. rewrite andb_false_r.
    rewrite Q5 by lia. replace (reg' + 0 <? cu' + zlen us) with false by lia. rewrite andb_false_r.
    rewrite Z.add_0_r. apply znth_upd_same. rewrite zlen_upd; lia.
  - rewrite Q6 by lia. replace (cu' + zlen (b_upvals g) <=? cu' - 2) with false by lia. cbn [andb]. rewrite P5 by lia.
    unfold s4, s2. rewrite (znth_upd_other _ reg'), (znth_upd_other _ (reg' - 1)); rewrite ?zlen_upd; rewrite ?zlen_upd; rewrite ?zlen_upd; try lia.
    rewrite znth_upd_other; rewrite ?zlen_upd; try lia. apply znth_upd_same; lia.
  - rewrite Q6 by lia. replace (cu' + zlen (b_upvals g) <=? cu' - 1) with false by lia. cbn [andb]. rewrite P5 by lia.
    unfold s4, s2. rewrite (znth_upd_other _ reg'), (znth_upd_other _ (reg' - 1)); rewrite ?zlen_upd; rewrite ?zlen_upd; rewrite ?zlen_upd; try lia.
    apply znth_upd_same; rewrite zlen_upd; lia.
  - intros i I. rewrite Q6 by lia. replace (cu' + zlen (b_upvals g) <=? i) with false by lia. cbn [andb]. rewrite P5 by lia. apply P4; lia.
Qed.

(** vm.c 886-905 *)
Lemma return_sim q' st pos (w : W) fs a pos0 a0 b0 : gnth tbl (fr_id q') = Some (fr_f q') -> fr_cu q' = reg + b_stack F + 2 ->
  zlen (b_code (fr_f q')) <= 2047 -> zlen (b_code F) <= 2047 -> fr_reg q' + b_stack (fr_f q') <= 4096 ->
  op (fr_f q') pos O_RETURN a 0 -> rok (fr_f q') a -> zlen st = 4096 -> fsok fs ->
  znth st (fr_cu q' - 2) = fr_id q -> znth st (fr_cu q' - 1) = pos0 -> op F pos0 O_CALL a0 b0 -> rok F a0 ->
  run1 (St q' st pos w fs) (St q (supd st (reg + a0) (znth st (fr_reg q' + a))) (pos0 + 1) w fs).
Proof.
  intros PF CU SM' SM RM OP RA Z FS P1 P2 OPC RA0 nested. unfold rok in *. pose proof (st_ok ltac:(lia)) as K.
  pose proof (gnth_Some _ _ _ OP) as R. pose proof (gnth_Some _ _ _ OPC) as R0.
  unfold step, St. cbn [v_st v_w v_f v_cu v_pos v_fs]. unfold proto_at, grd. rewrite PF. cbn [bind].
  replace (pos <? zlen (b_code (fr_f q'))) with true by lia. cbn [negb]. unfold instr_at. unfold op in OP. rewrite OP. cbv zeta.
  change (regbase (fr_cu q') (fr_f q')) with (fr_reg q').
  pose proof (f_reg q') as FR. unfold fr_nu in FR. pose proof (zlen_nonneg (b_upvals (fr_f q'))). pose proof (zlen_nonneg (b_locals (fr_f q'))).
  rewrite rd_ok by lia. cbn [bind]. replace (fr_cu q' =? 0) with false by lia. cbn [negb].
  rewrite rd_ok by lia. cbn [bind]. rewrite P1. rewrite rd_ok by lia. cbn [bind]. rewrite P2.
  assert (G : gnth tbl (fr_id q) = Some F) by apply FO. rewrite G. cbn [bind]. unfold op in OPC. rewrite OPC. cbn [ia].
  rewrite (FS _ _ G). replace (fr_cu q' - (b_stack F + 2)) with reg by lia.
  replace (reg - (localsize F + upvalsize F + 1)) with cu by (unfold localsize, upvalsize; unfold fr_nu in *; lia).
  rewrite wr_ok by lia. cbn [bind]. assert (SX : (STACK_MAX <=? cu) = false) by (clear - K RA0; unfold STACK_MAX; pose proof (zlen_nonneg (b_locals F)); lia). rewrite SX. rewrite u32_id by lia. reflexivity.
Qed.

(** [call] on something that is a closure already *)
Definition closure (n dd : nat) (w : W) (cl slf : Z) (vs : list Z) : res (W * out) :=
  match h_kind H w cl with
  | KNative sig arity minargs =>
      if match sig with None => true | Some _ => (arity =? Z.of_nat (length vs)) && (minargs <=? arity) end
      then do r <- h_prim H P_call w (cl :: slf :: vs); Ok (fst r, Val (Some (snd r)))
      else UB
  | KVm pid (Some _) arity minargs ups =>
      match dd, funs pid with
      | S d, Some (ps, body) =>
          if (arity =? Z.of_nat (length vs)) && (minargs <=? arity)
             && (Z.of_nat (length ps) =? Z.of_nat (length vs))
             && (Z.of_nat (length ups) =? Z.of_nat (length (capt pid)))
             && truth slf
          then
            match evals H funs capt n d slf (bind_names (capt pid) ups (fun _ => None)) w
                    (bind_names ps vs (fun _ => None)) (Some slf) body with
            | Ok (w, _, Val (Some v)) => Ok (w, Val (Some v))
            | Ok (w, _, Ret v) => Ok (w, Val (Some v))
            | Ok (w, _, Abort v) => Ok (w, Abort v)
            | Ok _ => UB
            | UB => UB
            | NoFuel => NoFuel
            end
          else UB
      | _, _ => UB
      end
  | _ => UB
  end.
Lemma call_S n dd w cl slf vs : call H funs capt (S n) dd w cl slf vs =
  match h_kind H w cl with
  | KVtable =>
      do o <- h_prim H P_object_new w [cl];
      do c <- h_prim H P_ctor (fst o) [cl];
      if truth (snd o) then closure n dd (fst c) (snd c) (snd o) vs else UB
  | KOther =>
      if truth cl then
        do g <- h_prim H P_get_call w [cl];
        if h_isclosure H (fst g) (snd g)
        then do r <- h_prim H P_call (fst g) (snd g :: cl :: vs); Ok (fst r, Val (Some (snd r)))
        else Ok (fst g, Val (Some (snd g)))
      else UB
  | _ => closure n dd w cl slf vs
  end.
Proof. reflexivity. Qed.

(** the effect of a call on the frame of the caller *)
Definition called (s1 : vst W) st pos r E (w' : W) (o : out) : Prop :=
  match o with
  | Val (Some v) => exists st' fs', star s1 (St q st' (pos + 1) w' fs') /\ inv q st' E /\ fsok fs' /\ znth st' (reg + r) = v
      /\ forall i, 0 <= i < reg + b_stack F -> i <> reg + r -> znth st' i = znth st i
  | Abort v => exists s' fs', star s1 s' /\ forall nested, step H tbl is_str STR0 nested s' = Ok (SDone w' fs' v)
  | _ => False
  end.
Lemma inv_same st st' E : inv q st E -> 0 <= b_stack F -> zlen st' = zlen st -> (forall i, 0 <= i < reg -> znth st' i = znth st i) -> inv q st' E.
Proof.
  intros (Z & SF & L & U) B Z' Q. pose proof (st_ok B) as K. unfold fr_nu in *. pose proof (zlen_nonneg (b_locals F)).
  split; [lia|]. split; [rewrite Q by lia; exact SF|]. split.
  - intros x i V. specialize (L x i V). pose proof (vfind_range _ _ _ V). unfold fr_nu in *. rewrite Q by lia. exact L.
  - intros x. rewrite U. destruct (vfind (b_upvals F) x) eqn:V; [|reflexivity]. apply vfind_range in V. rewrite Q by lia. reflexivity.
Qed.
Lemma args_eq st r slf vs : zlen st = 4096 -> 0 <= reg + r -> reg + r + 2 + zlen vs <= 4096 -> znth st (reg + (r + 1)) = slf ->
  (forall i, 0 <= i < zlen vs -> znth st (reg + (r + 2 + i)) = znth vs i) ->
  zsub st (reg + r + 1) (1 + zlen vs) = slf :: vs.
Proof.
  intros Z R1 R2 A B. pose proof (zlen_nonneg vs). apply znth_ext; [rewrite zlen_zsub, zlen_cons by lia; reflexivity|].
  intros i I. rewrite zlen_zsub in I by lia. rewrite znth_zsub by lia.
  destruct (Z.eq_dec i 0) as [->|D]; [rewrite znth_cons0, <- A; f_equal; lia|].
  rewrite znth_consS by lia. rewrite <- B by lia. f_equal. lia.
Qed.

Lemma clos_sim n st0 w0 st pos w fs E r cl slf vs w' o s1 : body_ok n ->
  op F pos O_CALL r (r + 1 + zlen vs) -> rok F r -> rok F (r + 1 + zlen vs) -> inv q st E -> fsok fs ->
  znth st (reg + (r + 1)) = slf -> (forall i, 0 <= i < zlen vs -> znth st (reg + (r + 2 + i)) = znth vs i) ->
  closure n d w cl slf vs = Ok (w', o) ->
  (forall nested, step H tbl is_str STR0 nested s1 = call_closure H tbl is_str STR0 nested (St q st0 pos w0 fs) F st w reg r (r + 1 + zlen vs) cl) ->
  called s1 st pos r E w' o.
Proof.
  intros BO OP RA RB IV FS SL VS C ST. pose proof (zlen_nonneg vs) as ZV.
  assert (G : gnth tbl (fr_id q) = Some F) by apply FO. destruct (TO _ _ G) as (SM & MM). 
  pose proof (gnth_Some _ _ _ OP) as PO. destruct SM as (SM & _).
  pose proof RA as RA'. unfold rok in RA, RB. pose proof (st_ok ltac:(lia)) as K.
  unfold closure in C. unfold call_closure, St in ST. cbn [v_cu v_f v_pos v_fs] in ST. cbv zeta in ST.
  replace (r + 1 + zlen vs - r - 1) with (zlen vs) in ST by lia.
  destruct IV as (Z & IV'). pose proof (conj Z IV' : inv q st E) as IV.
  destruct (h_kind H w cl) as [|pid sig arity minargs us|sig arity minargs|] eqn:HK; try discriminate C.
  - destruct sig as [sg|]; [|discriminate C]. destruct d as [|d'] eqn:ED; [discriminate C|]. rewrite <- ED in *.
    destruct (funs pid) as [(ps, body)|] eqn:FN; [|discriminate C].
    destruct (_ && _) eqn:CK in C; [|discriminate C]. rewrite HC in C, CK.
    change (Z.of_nat (length vs)) with (zlen vs) in CK. change (Z.of_nat (length ps)) with (zlen ps) in CK. change (Z.of_nat (length us)) with (zlen us) in CK.
    repeat (apply andb_prop in CK; destruct CK as (CK & ?)).
    assert (arity = zlen vs) by lia. subst arity. assert (ZP : zlen ps = zlen vs) by lia.
    destruct (HT _ _ _ FN) as ((g & G' & HC1 & ZC & GK & NB & SG & PR & NP & DS) & NM).
    assert (UQ : ups tbl pid = b_upvals g) by (unfold ups; rewrite G'; reflexivity). rewrite UQ in *.
    change (Z.of_nat (length (b_upvals g))) with (zlen (b_upvals g)) in *.
    assert (ZU : zlen us = zlen (b_upvals g)) by lia.
    rewrite (FS _ _ G) in ST.
    replace (STACK_MAX <=? reg + b_stack F + upvalsize F + localsize F + 8) with false in ST.
    2:{ unfold STACK_MAX, upvalsize, localsize. destruct FO as (_ & _ & R & _). rewrite ED in R. unfold fr_nu in *. nia. }
    rewrite rd_ok in ST by lia. cbn [bind] in ST. rewrite sig_check_all in ST by lia.
    replace (Z.max 0 (zlen vs - zlen vs)) with 0 in ST by lia. change (Z.to_nat 0) with O in ST. cbn [fill_defaults bind] in ST.
    replace (upd_fs fs (fr_id q) (b_stack F + 0) (fr_id q)) with (b_stack F) in ST by (unfold upd_fs; rewrite Z.eqb_refl; lia).
    set (fs1 := upd_fs fs (fr_id q) (b_stack F + 0)) in *.
    assert (FS1 : fsok fs1).
    { intros p h P. unfold fs1, upd_fs. destruct (p =? fr_id q) eqn:Q; [|apply FS, P]. apply Z.eqb_eq in Q. subst p. rewrite G in P. injection P as <-. lia. }
    rewrite wr_ok in ST by lia. cbn [bind] in ST. rewrite wr_ok in ST by (rewrite zlen_upd; lia). cbn [bind] in ST.
    replace (reg + r + 1) with (reg + (r + 1)) in ST by lia. rewrite SL in ST.
    destruct (enter_sim d' st pos w fs1 pid g ps body slf vs us (AStack (reg + r + 2)) r ED FN G') as (st1 & E1 & IV1 & R0 & P1 & P2 & PB);
      [assumption|exact FS1|exact Z|lia|exact RA'|unfold rok; lia|exact ZP|exact ZU|exact VS|reflexivity|].
    set (q' := callee pid g slf us) in *.
    assert (FO' : fok q' d') by (apply callee_ok; auto; lia).
    assert (S1 : star s1 (St q' st1 0 w fs1)) by (apply star_one; intros nested; rewrite ST; exact E1).
    apply has_app_inv in HC1. destruct HC1 as (HC1 & HC2). rewrite (proj1 (proj1 (proj2 (zlen_gen tbl g)) body)) in HC2. cbn in HC2. apply has_cons_inv in HC2. destruct HC2 as (OPR & _).
    destruct (proj1 (proj2 need_nonneg) body) as (NN & _). 
    destruct (TO _ _ G') as (SM' & _). pose proof SM' as (SM'1 & _).
    destruct (f_room tbl is_str M q' d' TO FO' ltac:(cbn; lia)) as (RM1 & RM2). change (b_stack (fr_f q')) with (b_stack g) in *.
    pose proof (proj1 (proj1 (proj2 (size_pos tbl g)) body)) as SP.
    assert (G2 : gnth tbl (fr_id q') = Some (fr_f q')) by exact G'.
    match type of C with match ?X with _ => _ end = _ => destruct X as [((w2, E2), o2)| |] eqn:EV; try discriminate C end.
    assert (PO' : post q' 0 st1 0 w fs1 (size_all tbl body) (keeps_all body) 0 0 (w2, E2, o2)).
    { eapply (BO d' q' st1 fs1 w); [exact FO'|exact HC1|exact GK|cbn; lia|cbn; lia|exact IV1|exact FS1| |exact EV]. intros v Q. injection Q as <-. exact R0. }
    assert (FIN : forall st2 pos2 fs2 a v, star (St q' st1 0 w fs1) (St q' st2 pos2 w2 fs2) -> op g pos2 O_RETURN a 0 -> rok g a ->
       znth st2 (fr_reg q' + a) = v -> fsok fs2 -> zlen st2 = 4096 -> (forall i, 0 <= i < fr_cu q' -> znth st2 i = znth st1 i) ->
       called s1 st pos r E w2 (Val (Some v))).
    { intros st2 pos2 fs2 a v S2 OP2 RO2 V2 FS2 Z2 B2.
      assert (CQ : fr_cu q' = reg + b_stack F + 2) by reflexivity.
      pose proof (return_sim q' st2 pos2 w2 fs2 a pos r (r + 1 + zlen vs) G2 CQ SM'1 SM ltac:(change (b_stack (fr_f q')) with (b_stack g); lia) OP2 RO2 Z2 FS2) as RT.
      rewrite CQ in RT. rewrite CQ in B2. rewrite !B2 in RT by lia. specialize (RT P1 P2 OP RA').
      exists (supd st2 (reg + r) v), fs2. subst v. 
      assert (BB : forall i, 0 <= i < reg + b_stack F -> i <> reg + r -> znth (supd st2 (reg + r) (znth st2 (fr_reg q' + a))) i = znth st i).
      { intros i I J. rewrite znth_upd_other by lia. rewrite B2 by lia. apply PB. lia. }
      split; [eapply star_trans; [exact S1|]; eapply star_snoc; [exact S2|exact RT]|].
      split; [eapply (inv_same st); [exact IV|lia|rewrite zlen_upd; lia|intros i I; apply BB; lia]|].
      split; [exact FS2|]. split; [apply znth_upd_same; lia|exact BB]. }
    destruct o2 as [[v|]| | |v|v]; try discriminate C; injection C as <- <-.
    + destruct PO' as (st2 & fs2 & OK2 & V2 & _). cbn [fst snd] in OK2. destruct OK2 as [SS2 IV2 FS2 SA2].
      eapply (FIN st2 (0 + size_all tbl body) fs2 0 v SS2); [|unfold rok; lia|apply V2; reflexivity|exact FS2|apply IV2|].
      * apply opI; [exact OPR|lia|lia].
      * intros i I. apply SA2; [lia|]. left. unfold fr_nu. pose proof (zlen_nonneg (b_upvals (fr_f q'))). lia.
    + destruct PO' as (st2 & pos2 & fs2 & a & SS2 & OP2 & RO2 & V2 & FS2 & Z2 & B2). eapply FIN; eassumption.
    + destruct PO' as (s' & fs2 & SS2 & SD). exists s', fs2. split; [eapply star_trans; [exact S1|exact SS2]|exact SD].
  - destruct (match sig with None => true | Some _ => _ end) eqn:CK in C; [|discriminate C].
    change (Z.of_nat (length vs)) with (zlen vs) in CK.
    match type of C with bind ?X _ = _ => destruct X as [(w2, v2)| |] eqn:EP; try discriminate C end. cbn [bind fst snd] in C. injection C as <- <-.
    assert (S1 : forall nested, step H tbl is_str STR0 nested s1 = Ok (SRun (St q (supd st (reg + r) v2) (pos + 1) w2 fs))).
    { intros nested. rewrite ST. clear ST.
      assert (X1 : match sig with Some _ => sig_check minargs arity (zlen vs) | None => false end = false).
      { destruct sig; [|reflexivity]. apply andb_prop in CK. destruct CK as (C1 & C2). replace arity with (zlen vs) in * by lia. apply sig_check_all. lia. }
      rewrite X1.
      assert (X2 : match sig with Some _ => Z.max 0 (arity - zlen vs) | None => 0 end = 0).
      { destruct sig; [|reflexivity]. apply andb_prop in CK. lia. }
      rewrite X2. replace (match sig with Some t => fill_defaults is_str STR0 t reg r (zlen vs) (Z.to_nat 0) st | None => Ok st end) with (Ok st) by (destruct sig; reflexivity).
      cbn [bind]. rewrite read_regs_ok by lia. cbn [bind].
      replace (Z.of_nat (Z.to_nat (r + 1 + zlen vs + 0 - r))) with (1 + zlen vs) by lia.
      rewrite (args_eq st r slf vs Z ltac:(lia) ltac:(lia) SL VS). rewrite EP. cbn [bind fst snd].
      rewrite wr_ok by lia. cbn [bind]. rewrite u32_id by lia. reflexivity. }
    exists (supd st (reg + r) v2), fs.
    assert (BB : forall i, 0 <= i < reg + b_stack F -> i <> reg + r -> znth (supd st (reg + r) v2) i = znth st i).
    { intros i I J. apply znth_upd_other; lia. }
    split; [apply star_one; exact S1|]. split; [eapply (inv_same st); [exact IV|lia|rewrite zlen_upd; lia|intros i I; apply BB; lia]|].
    split; [exact FS|]. split; [apply znth_upd_same; lia|exact BB].
Qed.

(** OP_CALL *)
Lemma call_sim n st pos w fs E r cl slf vs w' o tb tc : body_ok n ->
  gnth (b_code F) pos = Some (I O_CALL r (r + 1 + zlen vs)) -> 0 <= r -> rok F (r + 1 + zlen vs) -> inv q st E -> fsok fs ->
  znth st (reg + r) = cl -> znth st (reg + (r + 1)) = slf -> (forall i, 0 <= i < zlen vs -> znth st (reg + (r + 2 + i)) = znth vs i) ->
  call H funs capt (S n) d w cl slf vs = Ok (w', o) ->
  post q r st pos w fs 1 true tb tc (w', E, o).
Proof.
  intros BO OPI R0 RB IV FS CL SL VS C. pose proof (zlen_nonneg vs) as ZV.
  assert (G : gnth tbl (fr_id q) = Some F) by apply FO. destruct (TO _ _ G) as (SM & MM).
  assert (RA : rok F r) by (unfold rok in *; lia).
  assert (OP : op F pos O_CALL r (r + 1 + zlen vs)) by (unfold rok in *; destruct SM as (_ & _ & _ & _ & _ & SM); apply opI; [exact OPI|lia|lia]).
  pose proof (gnth_Some _ _ _ OP) as PO. pose proof SM as (SMc & _).
  pose proof RA as RA'. pose proof RB as RB'. unfold rok in RA', RB'. pose proof (st_ok ltac:(lia)) as K.
  assert (Z : zlen st = 4096) by apply IV.
  (* the step *)
  assert (FINISH : forall st1 s1 ww oo, (forall i, 0 <= i < reg + b_stack F -> i <> reg + r -> i <> reg + (r + 1) -> znth st1 i = znth st i) ->
      (T (znth st (reg + (r + 1))) -> T (znth st1 (reg + (r + 1)))) ->
      called s1 st1 pos r E ww oo -> s1 = St q st pos w fs -> post q r st pos w fs 1 true tb tc (ww, E, oo)).
  { intros st1 s1 ww oo B TT CD ->. destruct oo as [[v|]| | |v|v]; try contradiction CD.
    - destruct CD as (st' & fs' & S1 & IV' & FS' & V & B'). exists st', fs'. cbn [fst snd]. split; [split; [exact S1|exact IV'|exact FS'|]|].
      + intros i I J. unfold fr_nu in *. pose proof (zlen_nonneg (b_locals F)). rewrite B' by lia. apply B; lia.
      + split; [intros v' Q; injection Q as <-; exact V|]. intros _ TB. rewrite B' by lia. apply TT, TB.
    - destruct CD as (s' & fs' & S1 & SD). exists s', fs'. split; assumption. }
  assert (STEP : forall nested, step H tbl is_str STR0 nested (St q st pos w fs) =
     match h_kind H w cl with
          | KVtable =>
              do r0 <- h_prim H P_object_new w [cl];
              do st <- wr st (reg + r + 1) (snd r0);
              do c <- h_prim H P_ctor (fst r0) [cl];
              do st <- wr st (reg + r) (snd c);
              call_closure H tbl is_str STR0 nested (St q (v_st (St q [] pos w fs)) pos w fs) F st (fst c) reg r (r + 1 + zlen vs) (snd c)
          | KOther =>
              do st <- wr st (reg + r + 1) cl;
              do r0 <- h_prim H P_get_call w [cl];
              do st <- wr st (reg + r) (snd r0);
              if h_isclosure H (fst r0) (snd r0) then
                do args <- read_regs st (reg + r + 1) (Z.to_nat (r + 1 + zlen vs - r));
                do r2 <- h_prim H P_call (fst r0) (snd r0 :: args);
                do st <- wr st (reg + r) (snd r2); Ok (SRun (St q st (pos + 1) (fst r2) fs))
              else Ok (SRun (St q st (pos + 1) (fst r0) fs))
          | _ => call_closure H tbl is_str STR0 nested (St q (v_st (St q [] pos w fs)) pos w fs) F st w reg r (r + 1 + zlen vs) cl
          end).
  { intros nested. unfold step, St. cbn [v_st v_w v_f v_cu v_pos v_fs]. unfold proto_at, grd. rewrite G. cbn [bind].
    replace (pos <? zlen (b_code F)) with true by lia. cbn [negb]. unfold instr_at. unfold op in OP. rewrite OP. cbv zeta.
    change (regbase cu F) with reg. rewrite rd_ok by lia. cbn [bind]. rewrite CL, u32_id by lia. reflexivity. }
  rewrite call_S in C. destruct (h_kind H w cl) as [|pid sig arity minargs us|sig arity minargs|] eqn:HK.
  - match type of C with bind ?X _ = _ => destruct X as [(w1, ob)| |] eqn:P1; try discriminate C end. cbn [bind fst snd] in C.
    match type of C with bind ?X _ = _ => destruct X as [(w2, ct)| |] eqn:P2; try discriminate C end. cbn [bind fst snd] in C.
    destruct (truth ob) eqn:TB; [|discriminate C].
    cbn [bind fst snd] in STEP. set (st1 := supd (supd st (reg + (r + 1)) ob) (reg + r) ct).
    assert (Z1 : zlen st1 = 4096) by (unfold st1; rewrite !zlen_upd; rewrite ?zlen_upd; lia).
    assert (B1 : forall i, 0 <= i < reg + b_stack F -> i <> reg + r -> i <> reg + (r + 1) -> znth st1 i = znth st i).
    { intros i I J L. unfold st1. rewrite !znth_upd_other; rewrite ?zlen_upd; lia. }
    assert (B2 : znth st1 (reg + (r + 1)) = ob).
    { unfold st1. rewrite znth_upd_other by (rewrite ?zlen_upd; lia). apply znth_upd_same. lia. }
    eapply (FINISH st1); [exact B1| | |reflexivity].
    + intros _. unfold T. rewrite B2, <- truth_test. exact TB.
    + eapply (clos_sim n _ _ st1 pos w2 fs E r ct ob vs); [exact BO|exact OP|exact RA|exact RB| |exact FS|exact B2| |exact C|].
      * eapply (inv_same st); [exact IV|lia|lia|intros i I; apply B1; lia].
      * intros i I. rewrite B1 by lia. apply VS, I.
      * intros nested. rewrite STEP. replace (reg + r + 1) with (reg + (r + 1)) by lia. rewrite ?P1. cbn [bind fst snd]. rewrite wr_ok by lia. cbn [bind fst snd]. rewrite ?P2. cbn [bind fst snd]. rewrite wr_ok by (rewrite zlen_upd; lia). cbn [bind]. reflexivity.
  - eapply (FINISH st); [auto|auto| |reflexivity]. eapply (clos_sim n); [exact BO|exact OP|exact RA|exact RB|exact IV|exact FS|exact SL|exact VS|exact C|]. exact STEP.
  - eapply (FINISH st); [auto|auto| |reflexivity]. eapply (clos_sim n); [exact BO|exact OP|exact RA|exact RB|exact IV|exact FS|exact SL|exact VS|exact C|]. exact STEP.
  - destruct (truth cl) eqn:TC; [|discriminate C].
    match type of C with bind ?X _ = _ => destruct X as [(w1, gc)| |] eqn:P1; try discriminate C end. cbn [bind fst snd] in C. 
    rewrite wr_ok in STEP by lia. cbn [bind fst snd] in STEP. rewrite wr_ok in STEP by (rewrite zlen_upd; lia). cbn [bind fst snd] in STEP.
    replace (reg + r + 1) with (reg + (r + 1)) in STEP by lia. set (st1 := supd (supd st (reg + (r + 1)) cl) (reg + r) gc) in *.
    assert (Z1 : zlen st1 = 4096) by (unfold st1; rewrite !zlen_upd; rewrite ?zlen_upd; lia).
    assert (B1 : forall i, 0 <= i < reg + b_stack F -> i <> reg + r -> i <> reg + (r + 1) -> znth st1 i = znth st i).
    { intros i I J L. unfold st1. rewrite !znth_upd_other; rewrite ?zlen_upd; lia. }
    assert (B2 : znth st1 (reg + (r + 1)) = cl).
    { unfold st1. rewrite znth_upd_other by (rewrite ?zlen_upd; lia). apply znth_upd_same. lia. }
    assert (B3 : znth st1 (reg + r) = gc) by (apply znth_upd_same; rewrite zlen_upd; lia).
    assert (IV1 : inv q st1 E) by (eapply (inv_same st); [exact IV|lia|lia|intros i I; apply B1; lia]).
    destruct (h_isclosure H w1 gc) eqn:IC.
    + match type of C with bind ?X _ = _ => destruct X as [(w2, v2)| |] eqn:P2; try discriminate C end. cbn [bind fst snd] in C. injection C as <- <-.
      rewrite read_regs_ok in STEP by lia. cbn [bind] in STEP.
      replace (Z.of_nat (Z.to_nat (r + 1 + zlen vs - r))) with (1 + zlen vs) in STEP by lia.
      replace (reg + (r + 1)) with (reg + r + 1) in STEP by lia.
      rewrite (args_eq st1 r cl vs Z1 ltac:(lia) ltac:(lia) B2) in STEP by (intros i I; rewrite B1 by lia; apply VS, I).
      rewrite P2 in STEP. cbn [bind fst snd] in STEP. rewrite wr_ok in STEP by lia. cbn [bind] in STEP.
      eapply (FINISH st1); [exact B1| | |reflexivity]; [intros _; unfold T; rewrite B2, <- truth_test; exact TC|].
      exists (supd st1 (reg + r) v2), fs. split; [apply star_one; exact STEP|].
      assert (BB : forall i, 0 <= i < reg + b_stack F -> i <> reg + r -> znth (supd st1 (reg + r) v2) i = znth st1 i) by (intros i I J; apply znth_upd_other; lia).
      split; [eapply (inv_same st1); [exact IV1|lia|rewrite zlen_upd; lia|intros i I; apply BB; lia]|].
      split; [exact FS|]. split; [apply znth_upd_same; lia|exact BB].
    + injection C as <- <-. eapply (FINISH st1); [exact B1| | |reflexivity]; [intros _; unfold T; rewrite B2, <- truth_test; exact TC|].
      exists st1, fs. split; [apply star_one; exact STEP|]. split; [exact IV1|]. split; [exact FS|]. split; [exact B3|auto].
Qed.

(** OP_PROTO *)
Lemma share_sim : forall xs r st pos w E w' E' rs, 
  has (b_code F) (pos + 1) (map (capi F r) xs) -> inv q st E -> 0 <= b_stack F ->
  (forall x, In x xs -> inl_ (b_upvals F) x \/ inl_ (b_locals F) x) ->
  share H (fr_u q) w E xs = Ok (w', E', rs) ->
  exists st', capture H F cu (cu + upvalsize F) pos (length xs) st w = Ok (st', w', rs) /\ inv q st' E'
    /\ forall i, 0 <= i -> i < cu + nu \/ reg - 1 <= i -> znth st' i = znth st i.
Proof.
  assert (G : gnth tbl (fr_id q) = Some F) by apply FO. destruct (TO _ _ G) as (SM & MM). destruct SM as (_ & _ & SL & SU & _).
  induction xs as [|x xs IH]; intros r st pos w E w' E' rs HS IV B XS SH; cbn [share capture length] in *.
  - injection SH as <- <- <-. exists st. auto.
  - cbn [map] in HS. apply has_cons_inv in HS. destruct HS as (OP & HS). rewrite OP. unfold capi.
    pose proof IV as (Z & SF & L & U). pose proof (st_ok B) as K. pose proof (U x) as Ux. unfold fr_nu in *. pose proof (zlen_nonneg (b_locals F)).
    destruct (vfind (b_upvals F) x) as [i|] eqn:VU.
    + pose proof (vfind_range _ _ _ VU). rewrite Ux in SH. 
      match type of SH with bind ?X _ = _ => destruct X as [((w1, E1), rs1)| |] eqn:S1; try discriminate SH end. cbn [bind] in SH. injection SH as <- <- <-.
      unfold I. rewrite (sx12_small i) by lia. rewrite rd_ok by lia. cbn [bind].
      destruct (IH r st (pos + 1) w E _ _ _ HS IV B (fun y Y => XS y (or_intror Y)) S1) as (st' & CP & IV' & SA). rewrite CP. cbn [bind].
      exists st'. split; [reflexivity|]. split; assumption.
    + rewrite Ux in SH. destruct (E x) as [v|] eqn:EX; [|discriminate SH].
      match type of SH with bind ?X _ = _ => destruct X as [(w0, rf)| |] eqn:S0; try discriminate SH end. cbn [bind fst snd] in SH.
      match type of SH with bind ?X _ = _ => destruct X as [((w1, E1), rs1)| |] eqn:S1; try discriminate SH end. cbn [bind] in SH. injection SH as <- <- <-.
      assert (IL : inl_ (b_locals F) x). { destruct (XS x (or_introl eq_refl)) as [(j & C)|]; [congruence|assumption]. }
      destruct IL as (j & VJ). pose proof (vfind_range _ _ _ VJ). specialize (L x j VJ). rewrite EX in L.
      unfold lx, idx. rewrite VJ. unfold I. rewrite (sx12_small j) by lia. unfold upvalsize in *. rewrite rd_ok by lia. rewrite L. cbn [bind]. rewrite S0. cbn [bind fst snd].
      rewrite wr_ok by lia. cbn [bind].
      assert (IV1 : inv q (supd st (cu + zlen (b_upvals F) + j) rf) (eupd E x rf)) by (eapply (inv_local H tbl is_str M q d TO FO); eassumption).
      destruct (IH r _ (pos + 1) w0 _ _ _ _ HS IV1 B (fun y Y => XS y (or_intror Y)) S1) as (st' & CP & IV' & SA). rewrite CP. cbn [bind].
      exists st'. split; [reflexivity|]. split; [assumption|]. intros k I1 I2. rewrite SA by assumption. apply znth_upd_other; lia.
Qed.
Lemma proto_sim st pos w fs E r l w' E' rs w2 v : 
  has (b_code F) pos (I O_PROTO r (px F l) :: map (capi F r) (ups tbl l)) -> inv q st E -> fsok fs -> rok F r ->
  pos + 1 + zlen (ups tbl l) <= 2047 ->
  inl_ (b_protos F) l -> (exists g, gnth tbl l = Some g) -> (forall x, In x (ups tbl l) -> inl_ (b_upvals F) x \/ inl_ (b_locals F) x) ->
  share H (fr_u q) w E (capt l) = Ok (w', E', rs) -> h_prim H (P_closure l) w' rs = Ok (w2, v) ->
  exists st', ok q r st pos w fs st' (pos + (1 + zlen (ups tbl l))) w2 fs E' /\ znth st' (reg + r) = v 
     /\ znth st' (reg + (r + 1)) = znth st (reg + (r + 1)).
Proof.
  intros HS IV FS RO PZ (p & VP) (g & Gg) XS SH PC. rewrite HC in SH. pose proof RO as RO'. unfold rok in RO'.
  assert (G : gnth tbl (fr_id q) = Some F) by apply FO. destruct (TO _ _ G) as (SM & MM). destruct SM as (_ & _ & SL & SU & SP & SK).
  apply has_cons_inv in HS. destruct HS as (OP & HS). unfold px, idx in OP. rewrite VP in OP.
  pose proof (vfind_range _ _ _ VP) as VR. pose proof (vfind_nth _ _ _ VP) as VN. pose proof (gnth_Some _ _ _ OP) as PO.
  destruct (share_sim _ r st pos w E _ _ _ HS IV ltac:(lia) XS SH) as (st1 & CP & IV1 & SA).
  pose proof (st_ok ltac:(lia)) as K. assert (Z1 : zlen st1 = 4096) by apply IV1.
  pose proof (zlen_nonneg (ups tbl l)).
  assert (UQ : ups tbl l = b_upvals g) by (unfold ups; rewrite Gg; reflexivity). rewrite UQ in *.
  exists (supd st1 (reg + r) v). split; [split|split].
  - apply star_one. intros nested. unfold step, St. cbn [v_st v_w v_f v_cu v_pos v_fs]. unfold proto_at, grd. rewrite G. cbn [bind].
    replace (pos <? zlen (b_code F)) with true by lia. cbn [negb]. unfold instr_at. rewrite OP. unfold I. rewrite !sx12_small by lia. cbv zeta.
    change (regbase cu F) with reg. rewrite rd_ok by lia. cbn [bind]. rewrite VN, Gg. cbn [bind]. rewrite CP. cbn [bind]. rewrite PC. cbn [bind fst snd].
    rewrite wr_ok by lia. cbn [bind]. rewrite u32_id by lia. do 3 f_equal. lia.
  - apply (inv_set H tbl is_str M q d TO FO); assumption.
  - exact FS.
  - intros i I1 I2. rewrite znth_upd_other by (unfold fr_nu in *; pose proof (zlen_nonneg (b_locals F)); lia). apply SA; lia.
  - apply znth_upd_same; lia.
  - rewrite znth_upd_other by lia. apply SA; lia.
Qed.
End Frame.
End Call.
