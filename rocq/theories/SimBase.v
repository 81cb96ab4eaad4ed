(** Frames of the interpreter and environments of the language: invariant,
    entering a function, outcomes. *)
From Verif Require Import Base Arr GArr WordModel NumModel AsmModel SigModel CompileModel VmModel SrcSpec CompileProofs CompileExt CodeGen GenLem GenOk SimStep.
From Coq Require Import ZifyBool.
Ltac Zify.zify_post_hook ::= Z.div_mod_to_equations.

Lemma vfind_head ps t x i : vfind ps x = Some i -> vfind (ps ++ t) x = Some i.
Proof. intros E. rewrite vfind_app, E. reflexivity. Qed.
Lemma nodup_vfind : forall ps i, nodup ps = true -> 0 <= i < zlen ps -> vfind ps (znth ps i) = Some i.
Proof.
  induction ps as [|x ps IH]; intros i N R; [unfold zlen in R; cbn in R; lia|]. rewrite zlen_cons in R.
  cbn in N. apply andb_prop in N. destruct N as (N1 & N2). cbn [vfind].
  destruct (Z.eq_dec i 0) as [->|D]; [cbn; rewrite Z.eqb_refl; reflexivity|].
  rewrite znth_consS by lia. specialize (IH (i - 1) N2 ltac:(lia)).
  destruct (x =? znth ps (i - 1)) eqn:E.
  - apply Z.eqb_eq in E. apply negb_true_iff in N1. change (existsb (Z.eqb x) ps) with (memb x ps) in N1.
    rewrite vfind_memb, E, IH in N1. discriminate.
  - rewrite IH. f_equal. lia.
Qed.
Lemma bind_names_find : forall xs vs E x, zlen xs = zlen vs ->
  bind_names xs vs E x = match vfind xs x with Some i => Some (znth vs i) | None => E x end.
Proof.
  induction xs as [|y xs IH]; intros [|v vs] E x Z; rewrite ?zlen_cons, ?zlen_nil in Z; try (pose proof (zlen_nonneg vs); lia); try (pose proof (zlen_nonneg xs); lia); [reflexivity|].
  cbn [bind_names vfind]. rewrite (Z.eqb_sym x y). destruct (y =? x); [reflexivity|]. rewrite IH by lia.
  destruct (vfind xs x) eqn:F; [|reflexivity]. apply vfind_range in F. f_equal. rewrite znth_consS by lia. f_equal. lia.
Qed.

(** signatures that are plain lists of names *)
Section Names.
Context (is_str : Z -> bool).
Definition names (ps : list Z) : Prop := forall x, In x ps -> is_str x = true /\ PN_IS_INT x = false.
Lemma sig_count_name ps i c : names ps -> 0 <= i < zlen ps -> sig_count is_str ps i (znth ps i) c = Ok (c + 1).
Proof. intros N R. destruct (N (znth ps i) (znth_In _ _ R)) as (A & B). unfold sig_count. rewrite A, B. reflexivity. Qed.
Lemma arity_names ps : names ps -> sig_arity is_str ps = Ok (zlen ps).
Proof.
  intros N. unfold sig_arity.
  assert (K : forall n i c, 0 <= i -> i + Z.of_nat n <= zlen ps -> arity_loop is_str ps i n c = Ok (c + Z.of_nat n)).
  { induction n as [|n IH]; intros i c I J; cbn [arity_loop]; [f_equal; lia|].
    rewrite rd_ok by lia. cbn [bind]. rewrite sig_count_name by (auto; lia). cbn [bind]. rewrite IH by lia. f_equal. lia. }
  rewrite K by (unfold zlen; lia). f_equal.
Qed.
Lemma name_at_names ps j : names ps -> 0 <= j < zlen ps -> sig_name_at is_str ps j = Ok (znth ps j).
Proof.
  intros N R. unfold sig_name_at.
  assert (K : forall n i, 0 <= i <= j -> i + Z.of_nat n = zlen ps -> name_loop is_str ps i n (i - 1) j = Ok (znth ps j)).
  { induction n as [|n IH]; intros i I J; cbn [name_loop]; [lia|].
    rewrite rd_ok by lia. cbn [bind]. rewrite sig_count_name by (auto; lia). cbn [bind].
    destruct (i - 1 + 1 =? j) eqn:E; [f_equal; f_equal; lia|]. replace (i - 1 + 1) with (i + 1 - 1) by lia. apply IH; lia. }
  replace (-1) with (0 - 1) by lia. apply K; unfold zlen in *; lia.
Qed.
End Names.

Lemma copy_ups_ok : forall ups st at_, 0 <= at_ -> at_ + zlen ups <= zlen st ->
  exists st', copy_ups st at_ ups = Ok st' /\ zlen st' = zlen st /\
    forall i, 0 <= i -> znth st' i = if (at_ <=? i) && (i <? at_ + zlen ups) then znth ups (i - at_) else znth st i.
Proof.
  induction ups as [|u ups IH]; intros st at_ A B; cbn [copy_ups].
  - rewrite zlen_nil in B. exists st. split; [reflexivity|]. split; [reflexivity|]. intros i _. rewrite zlen_nil. replace ((at_ <=? i) && (i <? at_ + 0)) with false by lia. reflexivity.
  - rewrite zlen_cons in B. pose proof (zlen_nonneg ups). rewrite wr_ok by lia. cbn [bind].
    destruct (IH (supd st at_ u) (at_ + 1)) as (st' & E & Z & K); [lia|rewrite zlen_upd by lia; lia|].
    exists st'. split; [exact E|]. rewrite zlen_upd in Z by lia. split; [exact Z|]. intros i I. rewrite K by lia. rewrite zlen_cons.
    destruct ((at_ + 1 <=? i) && (i <? at_ + 1 + zlen ups)) eqn:E1.
    + replace ((at_ <=? i) && (i <? at_ + (1 + zlen ups))) with true by lia. rewrite znth_consS by lia. f_equal. lia.
    + rewrite znth_upd by lia. destruct (at_ =? i) eqn:E2.
      * replace ((at_ <=? i) && (i <? at_ + (1 + zlen ups))) with true by lia. replace (i - at_) with 0 by lia. reflexivity.
      * replace ((at_ <=? i) && (i <? at_ + (1 + zlen ups))) with false by lia. reflexivity.
Qed.

Lemma copy_args_ok is_str f ps locals base st0 : names is_str ps -> b_sig f = ps -> pre ps (b_locals f) -> nodup ps = true ->
  0 <= base -> base + zlen ps <= locals -> locals + zlen ps <= zlen st0 ->
  exists st', copy_args is_str f locals (AStack base) 0 (Z.to_nat (zlen ps)) st0 = Ok st' /\ zlen st' = zlen st0 /\
    forall i, 0 <= i -> znth st' i = if (locals <=? i) && (i <? locals + zlen ps) then znth st0 (base + (i - locals)) else znth st0 i.
Proof.
  intros N SG P ND B0 B1 B2.
  assert (K : forall n k st, 0 <= k -> k + Z.of_nat n = zlen ps -> zlen st = zlen st0 ->
     exists st', copy_args is_str f locals (AStack base) k n st = Ok st' /\ zlen st' = zlen st0 /\
     forall i, 0 <= i -> znth st' i = if (locals + k <=? i) && (i <? locals + zlen ps) then znth st (base + (i - locals)) else znth st i).
  { induction n as [|n IH]; intros k st K0 K1 Z; cbn [copy_args].
    - exists st. split; [reflexivity|]. split; [exact Z|]. intros i I. replace ((locals + k <=? i) && (i <? locals + zlen ps)) with false by lia. reflexivity.
    - rewrite SG, name_at_names by (auto; lia). cbn [bind].
      assert (V : vfind (b_locals f) (znth ps k) = Some k) by (eapply pre_vfind; [exact P|apply nodup_vfind; [exact ND|lia]]).
      rewrite V. cbn [arg_at]. rewrite rd_ok by lia. cbn [bind]. rewrite wr_ok by lia. cbn [bind].
      destruct (IH (k + 1) (supd st (locals + k) (znth st (base + k)))) as (st' & E & Z' & Q); [lia|lia|rewrite zlen_upd by lia; exact Z|].
      exists st'. split; [exact E|]. split; [exact Z'|]. intros i I. rewrite Q by lia.
      destruct ((locals + (k + 1) <=? i) && (i <? locals + zlen ps)) eqn:E1.
      + replace ((locals + k <=? i) && (i <? locals + zlen ps)) with true by lia. rewrite znth_upd_other by lia. reflexivity.
      + rewrite znth_upd by lia. destruct (locals + k =? i) eqn:E2.
        * replace ((locals + k <=? i) && (i <? locals + zlen ps)) with true by lia. f_equal. lia.
        * replace ((locals + k <=? i) && (i <? locals + zlen ps)) with false by lia. reflexivity. }
  destruct (K (Z.to_nat (zlen ps)) 0 st0) as (st' & E & Z & Q); [lia|pose proof (zlen_nonneg ps); lia|reflexivity|].
  exists st'. split; [exact E|]. split; [exact Z|]. intros i I. rewrite Q by lia. rewrite Z.add_0_r. reflexivity.
Qed.

Lemma read_regs_ok : forall n st i, 0 <= i -> i + Z.of_nat n <= zlen st -> read_regs st i n = Ok (zsub st i (Z.of_nat n)).
Proof.
  induction n as [|n IH]; intros st i A B; cbn [read_regs]; [reflexivity|].
  rewrite rd_ok by lia. cbn [bind]. rewrite IH by lia. cbn [bind]. f_equal.
  apply znth_ext; [rewrite zlen_cons, !zlen_zsub by lia; lia|].
  intros j J. rewrite zlen_cons, zlen_zsub in J by lia. rewrite (znth_zsub st i) by lia.
  destruct (Z.eq_dec j 0) as [->|D]; [rewrite znth_cons0; f_equal; lia|].
  rewrite znth_consS by lia. rewrite znth_zsub by lia. f_equal. lia.
Qed.

Section Base.
Context {W : Type} (H : host W) (tbl : list pb) (is_str : Z -> bool) (STR0 M : Z).

(** the table of functions *)
Definition tbl_ok : Prop := forall pid g, gnth tbl pid = Some g ->
  small g /\ zlen (b_upvals g) + zlen (b_locals g) + 1 + b_stack g + 2 <= M.
(** f->stack has not changed *)
Definition fsok (fs : Z -> Z) : Prop := forall pid g, gnth tbl pid = Some g -> fs pid = b_stack g.
Definition clean (v : Z) : Prop := forall w, h_isref H w v = false.

Record frame := mkFr { fr_id : Z; fr_f : pb; fr_cu : Z; fr_self : Z; fr_u : env }.
Definition fr_nu (q : frame) := zlen (b_upvals (fr_f q)).
Definition fr_reg (q : frame) := regbase (fr_cu q) (fr_f q).
Definition fok (q : frame) (d : nat) : Prop :=
  gnth tbl (fr_id q) = Some (fr_f q) /\ 0 <= fr_cu q /\ fr_cu q + (Z.of_nat d + 1) * M + 8 <= 4096 /\ truth (fr_self q) = true.
Definition St (q : frame) st pos (w : W) fs : vst W := mkV st (fr_cu q) (fr_id q) pos w fs.

(** the frame holds the variables of the environment *)
Definition inv (q : frame) (st : list Z) (E : env) : Prop :=
  zlen st = 4096 /\ znth st (fr_reg q - 1) = fr_self q
  /\ (forall x i, vfind (b_locals (fr_f q)) x = Some i ->
        match E x with Some v => znth st (fr_cu q + fr_nu q + i) = v | None => clean (znth st (fr_cu q + fr_nu q + i)) end)
  /\ (forall x, fr_u q x = match vfind (b_upvals (fr_f q)) x with Some i => Some (znth st (fr_cu q + i)) | None => None end).
(** nothing but local variables and registers from [r] on has changed *)
Definition same (q : frame) (r : Z) (st st' : list Z) : Prop :=
  forall i, 0 <= i -> i < fr_cu q + fr_nu q \/ fr_reg q - 1 <= i < fr_reg q + r -> znth st' i = znth st i.

Record ok (q : frame) (r : Z) st pos w fs st' pos' w' fs' (E' : env) : Prop := mkOk {
  ok_star : star H tbl is_str STR0 (St q st pos w fs) (St q st' pos' w' fs');
  ok_inv : inv q st' E'; ok_fs : fsok fs'; ok_same : same q r st st' }.

Definition T (v : Z) : Prop := PN_TEST v = true.
(** every outcome except a value *)
Definition stop (q : frame) (r : Z) st pos w fs tb tc (res : result (W := W)) : Prop :=
  let '(w', E', o) := res in
  match o with
  | Val _ => False
  | Brk => exists st' fs', ok q r st pos w fs st' tb w' fs' E'
  | Cnt => exists st' fs', ok q r st pos w fs st' tc w' fs' E'
  | Ret v => exists st' pos' fs' a, star H tbl is_str STR0 (St q st pos w fs) (St q st' pos' w' fs')
      /\ op (fr_f q) pos' O_RETURN a 0 /\ rok (fr_f q) a /\ znth st' (fr_reg q + a) = v
      /\ fsok fs' /\ zlen st' = 4096 /\ (forall i, 0 <= i < fr_cu q -> znth st' i = znth st i)
  | Abort v => exists s' fs', star H tbl is_str STR0 (St q st pos w fs) s'
      /\ forall nested, step H tbl is_str STR0 nested s' = Ok (SDone w' fs' v)
  end.
Definition post (q : frame) (r : Z) st pos w fs sz (kp : bool) tb tc (res : result (W := W)) : Prop :=
  match snd res with
  | Val ov => exists st' fs', ok q r st pos w fs st' (pos + sz) (fst (fst res)) fs' (snd (fst res))
      /\ (forall v, ov = Some v -> znth st' (fr_reg q + r) = v)
      /\ (kp = true -> T (znth st (fr_reg q + (r + 1))) -> T (znth st' (fr_reg q + (r + 1))))
  | _ => stop q r st pos w fs tb tc res
  end.

(** ** composition *)
Section Frame.
Context (q : frame) (d : nat) (TO : tbl_ok) (FO : fok q d).
Local Notation F := (fr_f q).
Local Notation cu := (fr_cu q).
Local Notation nu := (fr_nu q).
Local Notation reg := (fr_reg q).
Let nl := zlen (b_locals F).
Lemma f_tbl : gnth tbl (fr_id q) = Some F. Proof. apply FO. Qed.
Lemma f_small : small F. Proof. apply (TO _ _ f_tbl). Qed.
Lemma f_reg : reg = cu + nu + nl + 1. Proof. unfold fr_reg, regbase, fr_nu, nl, upvalsize, localsize. reflexivity. Qed.
Lemma f_nonneg : 0 <= cu /\ 0 <= nu /\ 0 <= nl. 
Proof. split; [apply FO|]. split; apply zlen_nonneg. Qed.
Lemma f_room : 0 <= b_stack F -> reg + b_stack F + 2 <= cu + M /\ cu + M <= 4088.
Proof.
  intros B. destruct FO as (A & CU & R & _). destruct (TO _ _ A) as (_ & K). unfold fr_reg, regbase, upvalsize, localsize.
  pose proof (zlen_nonneg (b_upvals F)). pose proof (zlen_nonneg (b_locals F)). nia.
Qed.
Lemma same_refl r st : same q r st st. Proof. intros i _ _. reflexivity. Qed.
Lemma same_trans r r' a b c : same q r a b -> same q r' b c -> r <= r' -> same q r a c.
Proof. intros A B L i I J. rewrite B by lia. apply A; lia. Qed.
Lemma same_le r r' a b : same q r' a b -> r <= r' -> same q r a b.
Proof. intros A L i I J. apply A; lia. Qed.
Lemma ok_refl r st pos w fs E : inv q st E -> fsok fs -> ok q r st pos w fs st pos w fs E.
Proof. intros. split; auto using same_refl. apply star_refl. Qed.
Lemma ok_trans r r' st pos w fs st1 pos1 w1 fs1 E1 st2 pos2 w2 fs2 E2 :
  ok q r st pos w fs st1 pos1 w1 fs1 E1 -> ok q r' st1 pos1 w1 fs1 st2 pos2 w2 fs2 E2 -> r <= r' ->
  ok q r st pos w fs st2 pos2 w2 fs2 E2.
Proof. intros [] [] L. split; eauto using star_trans, same_trans. Qed.
Lemma ok_le r r' st pos w fs st1 pos1 w1 fs1 E1 : ok q r' st pos w fs st1 pos1 w1 fs1 E1 -> r <= r' -> ok q r st pos w fs st1 pos1 w1 fs1 E1.
Proof. intros [] L. split; eauto using same_le. Qed.
Lemma inv_set st E a v : inv q st E -> rok F a -> inv q (supd st (reg + a) v) E.
Proof.
  intros (Z & SF & L & U) R. unfold rok in R. pose proof f_reg. destruct f_nonneg as (N1 & N2 & N3). destruct f_room; [lia|].
  split; [rewrite zlen_upd by lia; exact Z|]. split; [rewrite znth_upd_other by lia; exact SF|]. split.
  - intros x i V. specialize (L x i V). apply vfind_range in V. fold nl in V. rewrite znth_upd_other by lia. exact L.
  - intros x. rewrite U. destruct (vfind (b_upvals F) x) eqn:V; [|reflexivity]. apply vfind_range in V. change (zlen (b_upvals F)) with nu in V. rewrite znth_upd_other by lia. reflexivity.
Qed.
Lemma ok_set r st0 pos0 w0 fs0 st pos w fs E a v pos' w' : ok q r st0 pos0 w0 fs0 st pos w fs E ->
  run1 H tbl is_str STR0 (St q st pos w fs) (St q (supd st (reg + a) v) pos' w' fs) -> r <= a -> rok F a ->
  ok q r st0 pos0 w0 fs0 (supd st (reg + a) v) pos' w' fs E.
Proof.
  intros [] R L RO. split; [eapply star_snoc; eassumption|apply inv_set; assumption|assumption|].
  intros i I J. pose proof f_reg. destruct f_nonneg as (N1 & N2 & N3). unfold rok in RO. destruct f_room; [lia|]. rewrite znth_upd_other; [auto| |lia|lia]. destruct ok_inv0 as (Z & _). lia.
Qed.
Lemma ok_go r st0 pos0 w0 fs0 st pos w fs E pos' w' : ok q r st0 pos0 w0 fs0 st pos w fs E ->
  run1 H tbl is_str STR0 (St q st pos w fs) (St q st pos' w' fs) ->
  ok q r st0 pos0 w0 fs0 st pos' w' fs E.
Proof. intros [] R. split; eauto using star_snoc. Qed.
Lemma inv_local st E x i v : inv q st E -> vfind (b_locals F) x = Some i -> 0 <= b_stack F -> inv q (supd st (cu + nu + i) v) (eupd E x v).
Proof.
  intros (Z & SF & L & U) V B. pose proof (vfind_range _ _ _ V) as R. fold nl in R. pose proof f_reg. destruct f_nonneg as (N1 & N2 & N3). destruct f_room; [lia|].
  split; [rewrite zlen_upd by lia; exact Z|]. split; [rewrite znth_upd_other by lia; exact SF|]. split.
  - intros y j Vy. specialize (L y j Vy). pose proof (vfind_range _ _ _ Vy) as Ry. fold nl in Ry. unfold eupd.
    destruct (y =? x) eqn:Q.
    + apply Z.eqb_eq in Q. subst y. rewrite V in Vy. injection Vy as <-. rewrite znth_upd_same by lia. reflexivity.
    + assert (i <> j). { intros <-. apply vfind_nth in V, Vy. lia. } rewrite znth_upd_other by lia. exact L.
  - intros y. rewrite U. destruct (vfind (b_upvals F) y) eqn:Vy; [|reflexivity]. apply vfind_range in Vy. change (zlen (b_upvals F)) with nu in Vy. rewrite znth_upd_other by lia. reflexivity.
Qed.
Lemma ok_local r st0 pos0 w0 fs0 st pos w fs E x i v pos' w' : ok q r st0 pos0 w0 fs0 st pos w fs E -> 0 <= b_stack F ->
  run1 H tbl is_str STR0 (St q st pos w fs) (St q (supd st (cu + nu + i) v) pos' w' fs) -> vfind (b_locals F) x = Some i ->
  ok q r st0 pos0 w0 fs0 (supd st (cu + nu + i) v) pos' w' fs (eupd E x v).
Proof.
  intros [] B R V. split; [eapply star_snoc; eassumption|apply inv_local; assumption|assumption|].
  intros j I J. pose proof (vfind_range _ _ _ V) as RR. fold nl in RR. pose proof f_reg. destruct f_nonneg as (N1 & N2 & N3). destruct f_room; [lia|].
  destruct ok_inv0 as (Z & _). rewrite znth_upd_other; [auto|lia|lia|lia].
Qed.
Lemma stop_ok r r' st pos w fs st1 pos1 w1 fs1 E1 tb tc res : ok q r st pos w fs st1 pos1 w1 fs1 E1 ->
  stop q r' st1 pos1 w1 fs1 tb tc res -> r <= r' -> stop q r st pos w fs tb tc res.
Proof.
  intros O K L. destruct res as ((w', E'), o). destruct o; cbn in *.
  - exact K.
  - destruct K as (st' & fs' & K). exists st', fs'. eapply ok_trans; eassumption.
  - destruct K as (st' & fs' & K). exists st', fs'. eapply ok_trans; eassumption.
  - destruct K as (st' & pos' & fs' & a & S1 & K1 & K2 & K3 & K4 & K5 & K6). exists st', pos', fs', a. destruct O.
    split; [eapply star_trans; eassumption|]. repeat (split; [assumption|]). intros i I. rewrite K6 by lia. apply ok_same0; [lia|]. destruct f_nonneg. left. lia.
  - destruct K as (s' & fs' & S1 & K). exists s', fs'. destruct O. split; [eapply star_trans; eassumption|exact K].
Qed.
Lemma post_stop r r' st pos w fs st1 pos1 w1 fs1 E1 sz kp sz' kp' tb tc res : ok q r st pos w fs st1 pos1 w1 fs1 E1 ->
  post q r' st1 pos1 w1 fs1 sz' kp' tb tc res -> (forall ov, snd res <> Val ov) -> r <= r' -> post q r st pos w fs sz kp tb tc res.
Proof.
  intros O K N L. unfold post in *. destruct res as ((w', E'), o). cbn [snd] in *. destruct o; [exfalso; eapply N; reflexivity| | | |]; eapply stop_ok; eassumption.
Qed.
End Frame.
End Base.
