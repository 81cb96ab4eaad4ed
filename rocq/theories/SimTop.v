(** Whole programs: what potion_source_compile returns, run by potion_vm. *)
From Verif Require Import Base Arr GArr WordModel NumModel AsmModel SigModel CompileModel VmModel SrcSpec CompileProofs CompileEq CompileExt CodeGen GenLem Capt GenOk GenOk2 SimStep SimOp SimBase SimCall Sim.
From Coq Require Import ZifyBool.
Ltac Zify.zify_post_hook ::= Z.div_mod_to_equations.

Section Compiled.
Context (chr0 : Z -> Z).
Local Notation upper := (isupper chr0).
(** the table of the functions of a program, the main function last *)
Definition ptbl (es : exps) : list pb := c_tbl (cprog es) ++ [c_f (cprog es)].
Definition main_id (es : exps) : Z := zlen (c_tbl (cprog es)).

Lemma sc_top L c : sc [] L c -> b_upvals (c_f c) = [].
Proof.
  intros (_ & _ & S2 & _). cbn [skel fst snd] in S2. destruct (b_upvals (c_f c)) as [|y l]; [reflexivity|]. specialize (S2 y). cbn in S2. rewrite Z.eqb_refl in S2.
  destruct (S2 eq_refl) as (_ & S3). discriminate S3.
Qed.
Lemma compiled es L' n' : wf_all upper [] false [] es = Some L' -> lab_all 0 es = Some n' ->
  main_id es = n' /\ gnth (ptbl es) (main_id es) = Some (c_f (cprog es)) /\ b_upvals (c_f (cprog es)) = []
  /\ fun_ok (ptbl es) (main_id es, ([], es)) /\ (forall f, In f (fns_all es) -> fun_ok (ptbl es) f).
Proof.
  intros WF LB. set (C0 := PN_REG 0 (mkC (pb0 [] []) [] [] None)).
  assert (G0 : good [] [] 0 C0).
  { apply good_reg. split; [apply sc0|]. split; [reflexivity|]. split; [intros i [K|K]; discriminate|]. exact Logic.I. }
  pose proof (good_exps chr0 _ _ _ _ _ _ es 0 C0 WF LB G0) as G1.
  pose proof (proj1 (proj1 (proj2 (cexp_loops upper)) es) _ _ _ 0 C0 WF) as LP.
  pose proof (proj1 (proj1 (proj2 (cexp_stk upper)) es) _ _ _ _ 0 C0 WF (or_introl (stk_reg _ _))) as SK.
  unfold ptbl, main_id, cprog. fold C0. set (C1 := cexps es 0 C0) in *. set (g := c_f (asm1 O_RETURN 0 C1)).
  change (c_tbl (asm1 O_RETURN 0 C1)) with (c_tbl C1).
  assert (GT : gnth (c_tbl C1 ++ [g]) (zlen (c_tbl C1)) = Some g).
  { rewrite gnth_app2 by lia. rewrite Z.sub_diag. reflexivity. }
  assert (UG : b_upvals g = []).
  { exact (sc_top _ _ (proj1 G1)). }
  assert (DG : dis g). { intros xx Hx. rewrite UG in Hx. discriminate. }
  assert (FG : fin (c_tbl C1 ++ [g]) g C1).
  { split; [apply pre_refl|]. split; [apply pre_refl|]. split; [apply pre_refl|]. split; [apply pre_refl|]. apply pre_app. }
  assert (CG : b_code g = code C1 ++ [I O_RETURN 0 0]) by reflexivity.
  destruct (proj1 (proj2 (cexp_gen chr0 (c_tbl C1 ++ [g]))) es) as (A & _).
  destruct (A _ _ _ _ _ _ 0 C0 g (b_code g) 0 0 WF LB G0 DG FG) as (HS & GK & FN).
  { intros i Hi. fold C1. fold C1 in Hi. rewrite LP. change (loops C0) with (@nil Z, @nil Z). cbn [fst snd memb existsb].
    rewrite CG. unfold oplen in Hi. rewrite gnth_app1 by (unfold code in *; lia). reflexivity. }
  pose proof (len_exps (c_tbl C1 ++ [g]) _ _ _ _ es 0 C0 g ltac:(eassumption) G0 FG) as Lb. fold C1 in Lb.
  assert (X0 : oplen C0 = 0) by reflexivity. rewrite X0 in *.
  split; [apply G1|]. split; [exact GT|]. split; [exact UG|]. split; [|exact FN].
  exists g. split; [exact GT|]. split.
  { apply has_app; [exact HS|]. rewrite (proj1 (proj1 (proj2 (zlen_gen (c_tbl C1 ++ [g]) g)) es)). apply has_cons; [|apply has_nil].
    rewrite CG. rewrite gnth_app2 by (unfold oplen, code in *; lia). replace (0 + size_all (c_tbl C1 ++ [g]) es - zlen (code C1)) with 0 by (unfold oplen, code in *; lia). reflexivity. }
  split; [rewrite CG, zlen_snoc; unfold oplen, code in *; lia|]. split; [exact GK|]. split; [exact SK|].
  assert (XC : ext C0 C1) by apply cexp_ext. destruct XC. split; [exact x_sig|]. split; [exact x_loc|]. split; [reflexivity|]. split; [exact DG|].
  split; [|destruct G1 as ((S1 & _) & _); change (b_locals g) with (fst (fst (skel C1))); rewrite S1; eapply (proj1 (proj1 (proj2 (wf_vars chr0)) es)); exact WF].
  rewrite UG. pose proof (proj1 (proj1 (proj2 (wf_mono chr0)) es) _ _ _ _ WF) as MO.
  destruct (proj1 (proj1 (proj2 (cexp_caps chr0)) es) _ _ _ _ ([] ++ sets_all es) 0 C0 WF (proj1 G0)) as (p & P1 & P2 & _).
  { split; intros y K; [rewrite memb_app, <- (proj1 MO); exact K|left; rewrite memb_app, <- (proj1 MO) in K; exact K]. }
  unfold captured. change (snd (fst (skel C0))) with (@nil Z) in P1, P2. rewrite P2, <- P1. exact (eq_sym UG).
Qed.
End Compiled.


(** the numbers of the functions are 0, 1, .. *)
Ltac obi := repeat match goal with H : obind _ _ = Some _ |- _ => apply obind_Some in H; destruct H as (? & ? & H) end.
Lemma lab_cover :
  (forall e n n', lab n e = Some n' -> n <= n' /\ forall l, n <= l < n' -> In l (map fst (fns e)))
  /\ (forall es, (forall n n', lab_all n es = Some n' -> n <= n' /\ forall l, n <= l < n' -> In l (map fst (fns_all es))) /\ True /\ True)
  /\ (forall k n n', lab_clauses n k = Some n' -> n <= n' /\ forall l, n <= l < n' -> In l (map fst (fns_clauses k))).
Proof.
  assert (J : forall n n1 n2 a b, n <= n1 /\ (forall l, n <= l < n1 -> In l (map fst a)) -> n1 <= n2 /\ (forall l, n1 <= l < n2 -> In l (map fst b)) ->
     n <= n2 /\ forall l, n <= l < n2 -> In l (map (@fst Z (list Z * exps)) (a ++ b))).
  { intros n n1 n2 a b (A & B) (C & D). split; [lia|]. intros l R. rewrite map_app. apply in_or_app. destruct (Z_lt_dec l n1); [left; apply B; lia|right; apply D; lia]. }
  apply exp_ind3; repeat match goal with |- forall _, _ => intro end; repeat match goal with IH : _ /\ _ |- _ => destruct IH end;
    try (match goal with |- (forall n n', _) /\ _ => split; [|split; exact Logic.I]; intros end);
    match goal with H : _ = Some _ |- _ => cbn [lab lab_all lab_clauses] in H; cbn [fns fns_all fns_clauses] end; obi.
  all: try (match goal with H : Some _ = Some _ |- _ => injection H as <- end; split; [lia|intros; lia]).
  all: try (eauto 8; fail).
  match goal with H : (if ?m =? l then _ else _) = Some _ |- _ => destruct (m =? l) eqn:Q; [|discriminate H]; injection H as <- end.
  apply Z.eqb_eq in Q. subst. eapply J; [eauto|]. split; [lia|]. intros l0 R. cbn. left. lia.
Qed.
Lemma assoc_In {A} (l : list (Z * A)) n a : assoc l n = Some a -> In (n, a) l.
Proof. induction l as [|(m, b) l IH]; cbn; [discriminate|]. destruct (m =? n) eqn:Q; [intros [= <-]; left; f_equal; lia|auto]. Qed.
Lemma assoc_None {A} (l : list (Z * A)) n : assoc l n = None -> ~ In n (map fst l).
Proof. induction l as [|(m, b) l IH]; cbn; [auto|]. destruct (m =? n) eqn:Q; [discriminate|]. intros K [P|P]; [lia|]. apply IH; auto. Qed.
Lemma capt_ups chr0 es L' n' : wf_all (isupper chr0) [] false [] es = Some L' -> lab_all 0 es = Some n' -> forall l, capt_of es l = ups (ptbl es) l.
Proof.
  intros WF LB l. destruct (compiled _ _ _ _ WF LB) as (MI & GM & UM & _ & FK). unfold capt_of, funs_of, ups.
  destruct (assoc (fns_all es) l) as [(ps, b)|] eqn:Q.
  - apply assoc_In in Q. destruct (FK _ Q) as (g & G & _ & _ & _ & _ & _ & _ & _ & _ & U & _). rewrite G. congruence.
  - apply assoc_None in Q. destruct (proj1 (proj1 (proj2 lab_cover) es) _ _ LB) as (N0 & CV).
    destruct (Z.eq_dec l (main_id es)) as [->|D]; [rewrite GM; congruence|].
    destruct (gnth (ptbl es) l) eqn:G; [|reflexivity]. exfalso. apply gnth_Some in G. unfold ptbl in G. rewrite zlen_snoc in G. unfold main_id in *.
    apply Q, CV. lia.
Qed.

(** ** running to the end *)
Section Run.
Context {W : Type} (H : host W) (tbl : list pb) (is_str : Z -> bool) (STR0 M : Z).
Lemma star_vrun s s' (w : W) fs v : star H tbl is_str STR0 s s' -> (forall nested, step H tbl is_str STR0 nested s' = Ok (SDone w fs v)) ->
  exists N, forall fuel, (N <= fuel)%nat -> vrun H tbl is_str STR0 fuel (Ok (SRun s)) = Ok (w, fs, v).
Proof.
  intros ST D. induction ST as [s|s s1 s2 R ST IH].
  - exists 2%nat. intros fuel L. destruct fuel as [|[|fuel]]; [lia|lia|]. cbn [vrun]. rewrite D. reflexivity.
  - destruct (IH D) as (N & K). exists (S N). intros fuel L. destruct fuel as [|fuel]; [lia|]. cbn [vrun]. rewrite R. apply K. lia.
Qed.
Lemma vrun_ok fuel r s : r = Ok (SRun s) -> vrun H tbl is_str STR0 fuel r = vrun H tbl is_str STR0 fuel (Ok (SRun s)).
Proof. intros ->. reflexivity. Qed.

Context (funs : Z -> option (list Z * exps)) (capt : Z -> list Z).
Context (TO : tbl_ok tbl M).
Context (HT : forall l ps b, funs l = Some (ps, b) -> fun_ok tbl (l, (ps, b)) /\ names is_str ps)
        (HC : forall l, capt l = ups tbl l)
        (HL : (forall w v, h_isref H w v = false) \/ (forall l ps b g, funs l = Some (ps, b) -> gnth tbl l = Some g -> b_locals g = ps)).
(** the variables of the main program start as nil *)
Definition nils : env := fun _ => Some PN_NIL.

Theorem run_main pid g es n d self (w w' : W) E' fs o v : gnth tbl pid = Some g -> fun_ok tbl (pid, ([], es)) -> b_upvals g = [] ->
  (Z.of_nat d + 1) * M + 8 <= 4096 -> truth self = true -> fsok tbl fs ->
  evals H funs capt n d self (fun _ => None) w nils (Some self) es = Ok (w', E', o) ->
  o = Val (Some v) \/ o = Ret v \/ o = Abort v ->
  exists N fs', forall fuel, (N <= fuel)%nat -> potion_vm H tbl is_str STR0 fuel pid self None [] w fs = Ok (w', fs', v).
Proof.
  intros G FK UP DM TS FS EV OV. destruct FK as (g' & G' & HS & ZC & GK & ND & SG & _ & _ & DS). rewrite G in G'. injection G' as <-.
  set (q := mkFr pid g 0 self (fun _ => None)).
  pose proof (proj1 need_nonneg) as _. pose proof (proj1 (proj1 (proj2 need_nonneg) es)) as NN.
  destruct (TO _ _ G) as (SM & FM). rewrite UP in FM. rewrite zlen_nil in FM. pose proof (zlen_nonneg (b_locals g)) as ZL.
  assert (FO : fok tbl M q d). { split; [exact G|]. split; [cbn; lia|]. split; [cbn; lia|exact TS]. }
  assert (RB : regbase 0 g = zlen (b_locals g) + 1). { unfold regbase, upvalsize, localsize. rewrite UP. change (zlen (@nil Z)) with 0. lia. }
  assert (FR : fr_reg q = zlen (b_locals g) + 1) by exact RB.
  assert (MM : M <= 4088) by nia.
  set (z := repeat 0 (Z.to_nat STACK_MAX)). set (st := supd (supd z (fr_reg q - 1) self) (fr_reg q) self).
  assert (ZZ : zlen z = 4096) by (unfold z, zlen; rewrite repeat_length; reflexivity).
  assert (Z0 : forall i, znth z i = 0). { intros i. unfold z, znth. apply nth_repeat. }
  assert (EN : vm_start tbl is_str pid self ANone [] w fs = Ok (SRun (St q st 0 w fs))).
  { unfold vm_start, enter. replace (STACK_MAX <=? 0) with false by reflexivity. unfold proto_at, grd. rewrite G. cbn [bind]. rewrite RB.
    fold z. rewrite wr_ok by lia. cbn [bind]. rewrite wr_ok by (rewrite zlen_upd by lia; lia). cbn [bind copy_ups].
    unfold st, St. rewrite FR. reflexivity. }
  assert (ST : zlen st = 4096). { unfold st. rewrite !zlen_upd by (rewrite ?zlen_upd; lia). exact ZZ. }
  assert (IV : inv H q st nils).
  { split; [exact ST|]. split; [|split].
    - unfold st. rewrite znth_upd_other by (rewrite ?zlen_upd; lia). rewrite znth_upd_same by lia. reflexivity.
    - intros x i V. apply vfind_range in V. unfold fr_nu. cbn [q fr_f fr_cu] in *. rewrite UP. change (zlen (@nil Z)) with 0.
      unfold nils, st. rewrite !znth_upd_other by (rewrite ?zlen_upd; lia). apply Z0.
    - intros x. cbn [q fr_f fr_u]. rewrite UP. reflexivity. }
  assert (R0 : forall v0, Some self = Some v0 -> znth st (fr_reg q + 0) = v0).
  { intros v0 Q. injection Q as <-. rewrite Z.add_0_r. unfold st. rewrite znth_upd_same by (rewrite zlen_upd by lia; lia). reflexivity. }
  apply has_app_inv in HS. destruct HS as (HS & HR). rewrite (proj1 (proj1 (proj2 (zlen_gen tbl g)) es)) in HR. rewrite Z.add_0_l in HR.
  apply has_cons_inv in HR. destruct HR as (HR & _). 
  pose proof (proj1 (proj1 (proj2 (size_pos tbl g)) es)) as SP.
  assert (PS : post H tbl is_str STR0 q 0 st 0 w fs (size_all tbl es) (keeps_all es) 0 0 (w', E', o)).
  { destruct (sim H tbl is_str STR0 M funs capt TO HT HC HL n) as (_ & SS & _).
    eapply (SS q d 0 0 0 0 st fs w nils (Some self) es); [|exact R0|exact HS|exact GK|exact EV].
    split; try assumption; try lia; try (cbn [q fr_f]; lia). split; lia. }
  assert (DONE : forall st' pos' fs' a, zlen st' = 4096 -> op g pos' O_RETURN a 0 -> rok g a -> znth st' (fr_reg q + a) = v ->
     forall nested, step H tbl is_str STR0 nested (St q st' pos' w' fs') = Ok (SDone w' fs' v)).
  { intros st' pos' fs' a Z OP RK V nested. unfold step, St. cbn [v_st v_w v_f v_cu v_pos v_fs q fr_cu fr_id fr_f]. unfold proto_at, grd. rewrite G. cbn [bind].
    pose proof (gnth_Some _ _ _ OP) as RG. replace (pos' <? zlen (b_code g)) with true by lia. cbn [negb]. unfold instr_at. unfold op in OP. rewrite OP.
    cbv zeta. unfold rok in RK. rewrite RB. rewrite rd_ok by lia. cbn [bind]. rewrite FR in V. rewrite V. reflexivity. }
  assert (FIN : exists s' fs', star H tbl is_str STR0 (St q st 0 w fs) s' /\ forall nested, step H tbl is_str STR0 nested s' = Ok (SDone w' fs' v)).
  { destruct OV as [->|[->| ->]].
    - destruct PS as (st' & fs' & O1 & V1 & _). cbn [fst snd] in *. rewrite Z.add_0_l in *. exists (St q st' (size_all tbl es) w' fs'), fs'.
      split; [apply O1|]. eapply (DONE st' _ fs' 0); [apply O1| |unfold rok; lia|apply V1; reflexivity].
      apply opI; [exact HR|lia|lia].
    - destruct PS as (st' & pos' & fs' & a & S1 & OP & RK & V & FS' & Z & _). exists (St q st' pos' w' fs'), fs'. split; [exact S1|].
      eapply DONE; eassumption.
    - destruct PS as (s' & fs' & S1 & D). exists s', fs'. split; assumption. }
  destruct FIN as (s' & fs' & S1 & D). destruct (star_vrun _ _ _ _ _ S1 D) as (N & K). exists N, fs'. intros fuel L.
  unfold potion_vm. rewrite EN. apply K. exact L.
Qed.
End Run.

(** ** a whole program, from its source *)
Definition start_stack (tbl : list pb) (pid : Z) : Z := match gnth tbl pid with Some g => b_stack g | None => 0 end.
Lemma start_fsok tbl : fsok tbl (start_stack tbl).
Proof. intros pid g G. unfold start_stack. rewrite G. reflexivity. Qed.
Lemma adds_in : forall S l, (forall x, In x S -> memb x l = true) -> adds l S = l.
Proof.
  induction S as [|x S IH]; intros l A; [reflexivity|]. change (adds l (x :: S)) with (adds (add x l) S).
  assert (add x l = l) as -> by (unfold add; rewrite A by (left; reflexivity); reflexivity). apply IH. intros y Y. apply A. right. exact Y.
Qed.
Section Program.
Context {W : Type} (H : host W) (chr0 : Z -> Z) (is_str : Z -> bool) (STR0 M : Z).
Theorem program_run k es L' n' m t n d self (w w' : W) E' o v :
  wf_all (isupper chr0) [] false [] es = Some L' -> lab_all 0 es = Some n' -> need_all es <= 255 ->
  source_compile chr0 k (program es) = Ok (m, t) ->
  (forall l ps b, In (l, (ps, b)) (fns_all es) -> names is_str ps) ->
  ((forall w v, h_isref H w v = false) \/ (forall l ps b, In (l, (ps, b)) (fns_all es) -> forall x, In x (sets_all b) -> memb x ps = true)) ->
  tbl_ok (t ++ [m]) M -> (Z.of_nat d + 1) * M + 8 <= 4096 -> truth self = true ->
  evals H (funs_of es) (capt_of es) n d self (fun _ => None) w nils (Some self) es = Ok (w', E', o) ->
  o = Val (Some v) \/ o = Ret v \/ o = Abort v ->
  exists N fs', forall fuel, (N <= fuel)%nat -> potion_vm H (t ++ [m]) is_str STR0 fuel (zlen t) self None [] w (start_stack (t ++ [m])) = Ok (w', fs', v).
Proof.
  intros WF LB ND SC NM HL TO DM TS EV OV.
  destruct (source_compile_eq chr0 k es L' m t WF ND SC) as (-> & ->).
  destruct (compiled _ _ _ _ WF LB) as (MI & GM & UM & FM & FK). change (c_tbl (cprog es) ++ [c_f (cprog es)]) with (ptbl es) in *.
  eapply (run_main H (ptbl es) is_str STR0 M (funs_of es) (capt_of es)); try eassumption.
  - intros l ps b Q. apply assoc_In in Q. split; [apply FK, Q|eapply NM, Q].
  - eapply capt_ups; eassumption.
  - destruct HL as [HL|HL]; [left; exact HL|right]. intros l ps b g Q G. apply assoc_In in Q. 
    destruct (FK _ Q) as (g' & G' & _ & _ & _ & _ & _ & _ & _ & _ & _ & LO). rewrite G in G'. injection G' as <-. rewrite LO.
    unfold vars. change (fold_left (fun l x => add x l) (sets_all b) ps) with (adds ps (sets_all b)). apply adds_in. eapply HL, Q.
  - apply start_fsok.
Qed.
End Program.
