(** The operators of the interpreter against the operators of the language. *)
From Verif Require Import Base WordModel WordProofs NumModel NumProofs AsmModel CompileModel VmModel SrcSpec CompileProofs.
From Coq Require Import ZifyBool.
Ltac Zify.zify_post_hook ::= Z.div_mod_to_equations.

Section Op.
Context {W : Type} (H : host W).
Definition bres (o : opc) (w : W) (a b : Z) (r : W * out) : Prop :=
  (exists v, snd r = Val (Some v) /\ binop H o w a b = Ok (fst r, inl v))
  \/ (exists v, snd r = Abort v /\ binop H o w a b = Ok (fst r, inr v)).

Lemma in62_repb r : in62 r = repb r. Proof. reflexivity. Qed.

Lemma num_sim p w a b k r : num_op H p w a b = Ok r ->
  (forall x, h_prim H p w [a; b] = Ok x -> k = (do r <- h_prim H p w [a; b]; Ok (fst r, inl (snd r)))) ->
  (exists v, snd r = Val (Some v) /\ check_nums H w a b k = Ok (fst r, inl v))
  \/ (exists v, snd r = Abort v /\ check_nums H w a b k = Ok (fst r, inr v)).
Proof.
  unfold num_op, check_nums, not_num. destruct (h_isnum H w a); cbn [negb].
  - destruct (h_isnum H w b); cbn [negb].
    + destruct (h_prim H p w [a; b]) as [x| |] eqn:E; try discriminate. cbn [bind]. intros [= <-] K. left.
      specialize (K x eq_refl). cbn [bind] in K. exists (snd x). rewrite K. auto.
    + destruct (h_prim H P_not_num w [b]) as [x| |]; try discriminate. cbn [bind]. intros [= <-] _. right. exists (snd x). auto.
  - destruct (h_prim H P_not_num w [a]) as [x| |]; try discriminate. cbn [bind]. intros [= <-] _. right. exists (snd x). auto.
Qed.
Lemma word_spec v : word v = true <-> 0 <= v < two64.
Proof. unfold word. lia. Qed.

Lemma int_sim op w a b r : word a = true -> word b = true -> PN_IS_INT a = true -> PN_IS_INT b = true ->
  int_op H op (zop op (PN_INT a) (PN_INT b)) w a b = Ok r ->
  exists v, snd r = Val (Some v) /\
    match vm_math3 op a b with
    | NWord v => Ok (w, inl v)
    | NDouble op x y => do r <- h_prim H (P_double op) w [PN_NUM x; PN_NUM y]; Ok (fst r, inl (snd r))
    end = Ok (fst r, inl v : Z + Z).
Proof.
  rewrite !word_spec. intros Wa Wb Ia Ib E.
  pose proof (vm_math3_spec op (PN_INT a) (PN_INT b) (PN_INT_rep a) (PN_INT_rep b)) as M.
  rewrite !PN_NUM_INT in M by assumption. rewrite M. unfold int_op in E. rewrite in62_repb in E.
  destruct (repb _).
  - injection E as <-. eexists. split; reflexivity.
  - rewrite !PN_NUM_INT by assumption. destruct (h_prim H (P_double op) w [a; b]) as [x| |]; try discriminate.
    cbn [bind] in *. injection E as <-. eexists. split; reflexivity.
Qed.

Lemma order_sim c (w : W) a b (r : W * out) : word a = true -> word b = true -> PN_IS_INT a = true -> PN_IS_INT b = true ->
  (if Bool.eqb (0 <=? PN_INT a) (0 <=? PN_INT b) then
     Ok (w, bool_val (match c with Lt => PN_INT a <? PN_INT b | Lte => PN_INT a <=? PN_INT b
                      | Gt => PN_INT b <? PN_INT a | Gte => PN_INT b <=? PN_INT a end)) else UB) = Ok r ->
  fst r = w /\ snd r = Val (Some (vm_numcmp c a b)).
Proof.
  rewrite !word_spec. intros Wa Wb Ia Ib E. destruct (Bool.eqb _ _) eqn:S; [|discriminate]. injection E as <-. cbn [fst snd]. split; [reflexivity|].
  unfold bool_val, vm_numcmp, PN_BOOL. do 2 f_equal.
  pose proof (PN_NUM_INT a Wa Ia) as Ea. pose proof (PN_NUM_INT b Wb Ib) as Eb. rewrite PN_NUM_eq in Ea, Eb.
  pose proof (PN_INT_rep a) as Ra. pose proof (PN_INT_rep b) as Rb. rewrite repb_spec in Ra, Rb.
  set (x := PN_INT a) in *. set (y := PN_INT b) in *. clearbody x y. apply Bool.eqb_prop in S.
  unfold two62, two64 in *.
  assert (Q : (a <? b) = (x <? y) /\ (a <=? b) = (x <=? y) /\ (b <? a) = (y <? x) /\ (b <=? a) = (y <=? x)).
  { destruct (0 <=? x) eqn:Sx; symmetry in S.
    - rewrite Z.mod_small in Ea, Eb by lia. lia.
    - rewrite <- (Z.mod_add (2 * x + 1) 1) in Ea by lia. rewrite <- (Z.mod_add (2 * y + 1) 1) in Eb by lia. rewrite Z.mod_small in Ea, Eb by lia. lia. }
  destruct Q as (Q1 & Q2 & Q3 & Q4). destruct c; rewrite ?Q1, ?Q2, ?Q3, ?Q4; reflexivity.
Qed.

Lemma bin_sim p w a b r : src_op p = true -> bin_op H p w a b = Ok r -> bres (opcode p) w a b r.
Proof.
  intros SO E. unfold bin_op in E. destruct (word a && word b) eqn:Wd; [|discriminate]. apply andb_prop in Wd. destruct Wd as (Wa & Wb).
  cbn [negb] in E. cbv zeta in E. unfold bres.
  assert (NN : forall q k, num_op H q w a b = Ok r -> k = (do r <- h_prim H q w [a; b]; Ok (fst r, inl (snd r))) ->
    (exists v, snd r = Val (Some v) /\ check_nums H w a b k = Ok (fst r, inl v))
    \/ (exists v, snd r = Abort v /\ check_nums H w a b k = Ok (fst r, inr v))).
  { intros q k E' ->. eapply num_sim; [exact E'|reflexivity]. }
  assert (EX : forall ok x op y, (if ok && in62 x then Ok (w, Val (Some (PN_NUM x))) else UB) = Ok r ->
     (ok = true -> in62 x = true -> vm_math2 op a b = Ok (PN_NUM x)) -> y = (do v <- vm_math2 op a b; Ok (w, inl v)) ->
     (exists v, snd r = Val (Some v) /\ y = Ok (fst r, inl v : Z + Z)) \/ (exists v, snd r = Abort v /\ y = Ok (fst r, inr v))).
  { intros ok x op y E' K ->. destruct (ok && in62 x) eqn:G; [|discriminate]. apply andb_prop in G. destruct G as (G1 & G2).
    injection E' as <-. rewrite K by assumption. left. eexists. split; reflexivity. }
  pose proof (PN_INT_rep a) as Ra. pose proof (PN_INT_rep b) as Rb. rewrite repb_spec in Ra, Rb.
  destruct p; try discriminate SO; cbv beta iota zeta delta [opcode binop_of binop arith_of math3 math2 numcmp eqcmp cmpop_of] in *.
  all: try (destruct (PN_IS_INT a && PN_IS_INT b) eqn:IN; [apply andb_prop in IN; destruct IN as (Ia & Ib)|eapply NN; [exact E|reflexivity]]).
  all: try (left; apply int_sim; assumption).
  all: try (eapply EX; [exact E| |reflexivity]; intros K1 K2; unfold vm_math2, num_math; cbn [c_long_op];
     unfold in62, two62, two63 in *; cbn [bind]).
  all: try (match type of E with (if Bool.eqb _ _ then _ else _) = _ =>
     first [apply (order_sim Gte) in E|apply (order_sim Gt) in E|apply (order_sim Lt) in E|apply (order_sim Lte) in E]; try assumption;
     destruct E as (-> & ->); left; eexists; split; reflexivity end).
  all: try (replace (PN_INT b =? 0) with false by lia).
  all: try (rewrite K1).
  all: try (rewrite slong_ok by (unfold two63; lia); reflexivity).
  all: try (replace ((PN_INT a =? - (9223372036854775808)) && (PN_INT b =? -1)) with false by lia; reflexivity).
  all: try (rewrite s64_id by (unfold two63; lia); reflexivity).
  all: try (rewrite Z.shiftr_div_pow2 by lia; reflexivity).
  all: try (destruct (PN_IS_PTR a); [|injection E as <-; left; eexists; split; reflexivity]).
  all: unfold prim_val in E; match type of E with context [h_prim ?h ?p ?w0 ?l] => destruct (h_prim h p w0 l) as [x| |]; try discriminate end;
    cbn [bind] in *; injection E as <-; left; eexists; split; reflexivity.
Qed.
Lemma is_bin_opcode p : src_op p = true -> match opcode p with
  | O_ADD | O_SUB | O_MULT | O_DIV | O_REM | O_POW | O_CMP | O_EQ | O_NEQ | O_LT | O_LTE | O_GT | O_GTE | O_BITL | O_BITR => true
  | _ => false
  end = true.
Proof. destruct p; intros; try discriminate; reflexivity. Qed.
End Op.
