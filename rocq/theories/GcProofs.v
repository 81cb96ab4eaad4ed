(** The collector's invariant: what every step of the evacuation preserves. *)
From Coq Require Import ZifyBool.
From Verif Require Import Base Arr WordModel WordProofs LayoutModel GcModel GcSpec.
Ltac Zify.zify_post_hook ::= Z.div_mod_to_equations.

Lemma In_zseq i : forall n a, In i (zseq a n) <-> a <= i < a + Z.of_nat n.
Proof.
  induction n as [|n IH]; intros a; cbn [zseq In]; [lia|]. rewrite IH. lia.
Qed.
Lemma hset_same h a o : hset h a o a = Some o.
Proof. unfold hset. rewrite Z.eqb_refl. reflexivity. Qed.
Lemma hset_other h a o x : x <> a -> hset h a o x = h x.
Proof. intros. unfold hset. destruct (Z.eqb_spec x a); congruence. Qed.

Lemma chain_fwd h n v r : chain h n v r -> forall f, (n < f)%nat -> fwd f h v = Ok r.
Proof.
  induction 1 as [v P|v o P Hh Hf|n v o r P Hh Hf Hc IH]; intros [|f] Hn; try lia; cbn [fwd]; rewrite P; auto.
  - rewrite Hh, Hf. reflexivity.
  - rewrite Hh, Hf. apply IH. lia.
Qed.
Lemma chain_det h n v r : chain h n v r -> forall m r', chain h m v r' -> n = m /\ r = r'.
Proof.
  induction 1 as [v P|v o P Hh Hf|n v o r P Hh Hf Hc IH]; intros m r' H2; inversion H2; subst; try congruence; auto;
  try (replace o0 with o in * by congruence; edestruct IH; eauto; subst; auto).
Qed.
Lemma chain_ptr h n v r : chain h n v r -> PN_IS_PTR v = false -> r = v.
Proof. intros H P. inversion H; subst; congruence. Qed.
(** the end of a chain is an immediate value or an object *)
Lemma chain_end h n v r : chain h n v r -> PN_IS_PTR r = true -> exists o, h r = Some o /\ is_fwd o = false.
Proof. induction 1; intros P; eauto; congruence. Qed.
Lemma chain_end_ptr h n v r : chain h n v r -> PN_IS_PTR v = true -> (n = 0)%nat -> exists o, h v = Some o /\ is_fwd o = false.
Proof. intros H P N. inversion H; subst; try congruence; eauto. Qed.

(** ** Shape: sizes and traced slots only depend on slots that are not traced *)
Section Shape.
Variable c : cfg.
Notation slots := (GcSpec.slots c).
Definition ksize_vt (vt : Z) (o : obj) : Z :=
  if vt =? PN_TNUMBER then 16
  else if vt =? PN_TSTRING then 12 + lo32 (word o 1) + 1
  else if vt =? PN_TCLOSURE then 48 + lo32 (word o 4) * 8
  else if vt =? PN_TTUPLE then 16 + 8 * hi32 (word o 1)
  else if vt =? PN_TSTATE then 600
  else if vt =? PN_TFILE then 32
  else if vt =? PN_TVTABLE then 96
  else if vt =? PN_TSOURCE then 56
  else if vt =? PN_TBYTES then 16 + hi32 (word o 1)
  else if vt =? PN_TPROTO then 136
  else if vt =? PN_TTABLE then
    24 + (if lo32 (word o 1) =? 0 then 0 else kh_size true (lo32 (word o 1)))
  else if vt =? PN_TLICK then 32
  else if vt =? PN_TSTRINGS then
    24 + (if lo32 (word o 1) =? 0 then 0 else kh_size false (lo32 (word o 1)))
  else if vt =? PN_TFLEX then 16 + hi32 (word o 1)
  else if vt =? PN_TCONT then 16 + lo32 (word o 1) * 8
  else if vt =? PN_TUSER then 12 + lo32 (word o 1)
  else 0.
Definition traced_vt (vt : Z) (o : obj) : list Z :=
  if vt =? PN_TWEAK then [1]
  else if vt =? PN_TCLOSURE then 2 :: zseq 6 (Z.to_nat (lo32 (word o 4)))
  else if vt =? PN_TTUPLE then zseq 2 (Z.to_nat (lo32 (word o 1)))
  else if vt =? PN_TSTATE then [60; 61; 62; 65; 66; 68; 69; 72; 74]
  else if vt =? PN_TFILE then [2]
  else if vt =? PN_TVTABLE then [2; 4; 5; 6; 7; 8; 9]
  else if vt =? PN_TSOURCE then [2; 3; 4; 6]
  else if vt =? PN_TPROTO then [1; 2; 3; 4; 5; 6; 7; 8; 9; 10; 13]
  else if vt =? PN_TTABLE then table_slots o
  else if vt =? PN_TLICK then [1; 2; 3]
  else if vt =? PN_TFLEX then zseq 2 (Z.to_nat (lo32 (word o 1)))
  else [].
Definition saved_vt (vt : Z) (o : obj) : list Z :=
  if vt =? PN_TCONT then zseq 5 (Z.to_nat (lo32 (word o 1) - 3)) else [].
(** the word that holds an element count, by kind *)
Definition counts1 (vt : Z) : bool :=
  (vt =? PN_TSTRING) || (vt =? PN_TTUPLE) || (vt =? PN_TBYTES) || (vt =? PN_TTABLE) ||
  (vt =? PN_TSTRINGS) || (vt =? PN_TFLEX) || (vt =? PN_TCONT) || (vt =? PN_TUSER).
Lemma table_slots_ge o i : In i (table_slots o) -> 3 + nflags (lo32 (word o 1)) <= i.
Proof.
  unfold table_slots. rewrite in_flat_map. intros (k & Hk & Hi). apply In_zseq in Hk.
  destruct (occupied o k); [|destruct Hi]. destruct Hi as [<-|[<-|[]]]; lia.
Qed.
Ltac keq :=
  repeat match goal with
  | |- context[Z.eqb ?x ?y] => is_const x; is_const y;
      let v := eval vm_compute in (Z.eqb x y) in change (Z.eqb x y) with v
  | H : context[Z.eqb ?x ?y] |- _ => is_const x; is_const y;
      let v := eval vm_compute in (Z.eqb x y) in change (Z.eqb x y) with v in H
  end; cbv iota in *.
Lemma counts1_untraced vt o : counts1 vt = true -> ~ In 1 (traced_vt vt o ++ saved_vt vt o).
Proof.
  unfold counts1. intros H I. apply in_app_or in I.
  assert (X : vt = PN_TSTRING \/ vt = PN_TTUPLE \/ vt = PN_TBYTES \/ vt = PN_TTABLE \/ vt = PN_TSTRINGS \/ vt = PN_TFLEX \/ vt = PN_TCONT \/ vt = PN_TUSER) by lia.
  clear H. unfold traced_vt, saved_vt in I.
  assert (N : 0 <= Z.shiftr (lo32 (word o 1)) 4) by (apply Z.shiftr_nonneg; unfold lo32; lia).
  destruct X as [->|[->|[->|[->|[->|[->|[->| ->]]]]]]]; keq; destruct I as [I|I]; try contradiction.
  all: try (apply In_zseq in I; lia).
  all: apply table_slots_ge in I; unfold nflags in I; lia.
Qed.
Lemma traced_vt_eq o : traced c o =
  if is_copied o || is_fwd o then [1] else if o_vt o >? PN_TUSER then zseq 1 (Z.to_nat (c_ivlen c (o_vt o))) else traced_vt (o_vt o) o.
Proof. reflexivity. Qed.
Lemma saved_vt_eq o : saved_stack o = saved_vt (o_vt o) o. Proof. reflexivity. Qed.
Lemma ksize_vt_eq o : kind_size o = ksize_vt (o_vt o) o. Proof. reflexivity. Qed.
Lemma vt_stub_not_cont o : is_copied o || is_fwd o = true -> (o_vt o =? PN_TCONT) = false.
Proof. unfold is_copied, is_fwd, POTION_COPIED, POTION_FWD, PN_TCONT, PN_TNIL. lia. Qed.
Lemma vt_user_not_cont o : (o_vt o >? PN_TUSER) = true -> (o_vt o =? PN_TCONT) = false.
Proof. unfold PN_TUSER, PN_TCONT, PN_TNIL. lia. Qed.
(** the words that sizes and traced slots are computed from *)
Lemma ksize_ext vt o o2 : (counts1 vt = true -> word o2 1 = word o 1) -> (vt = PN_TCLOSURE -> word o2 4 = word o 4) ->
  ksize_vt vt o2 = ksize_vt vt o.
Proof.
  intros H1 H4. unfold ksize_vt.
  repeat match goal with
  | |- (if vt =? ?k then _ else _) = _ => destruct (Z.eqb_spec vt k) as [->|?]; [keq; try (rewrite H4 by reflexivity); try (rewrite H1 by reflexivity); reflexivity|]
  end. reflexivity.
Qed.
Lemma occupied_ext o o2 nb : (forall i, 3 <= i < 3 + nflags nb -> word o2 i = word o i) ->
  forall k, 0 <= k < nb -> occupied o2 k = occupied o k.
Proof.
  intros H k Hk. unfold occupied. rewrite H; [reflexivity|]. unfold nflags. rewrite !Z.shiftr_div_pow2 by lia.
  assert (k / 2 ^ 4 <= nb / 2 ^ 4) by (apply Z.div_le_mono; lia). assert (0 <= k / 2 ^ 4) by (apply Z.div_pos; lia). lia.
Qed.
Lemma flat_map_ext_in {A B} (f g : A -> list B) l : (forall x, In x l -> f x = g x) -> flat_map f l = flat_map g l.
Proof. induction l as [|x l IH]; intros H; [reflexivity|]. cbn. rewrite (H x), IH; auto. - intros; apply H; right; auto. - left; auto. Qed.
Lemma table_slots_ext o o2 : word o2 1 = word o 1 ->
  (forall i, 3 <= i < 3 + nflags (lo32 (word o 1)) -> word o2 i = word o i) -> table_slots o2 = table_slots o.
Proof.
  intros H1 H. unfold table_slots. rewrite H1. apply flat_map_ext_in. intros k Hk. apply In_zseq in Hk.
  rewrite (occupied_ext o o2 (lo32 (word o 1)) H) by (unfold lo32 in *; lia). reflexivity.
Qed.
Lemma traced_ext vt o o2 : (counts1 vt = true -> word o2 1 = word o 1) -> (vt = PN_TCLOSURE -> word o2 4 = word o 4) ->
  (vt = PN_TTABLE -> forall i, 3 <= i < 3 + nflags (lo32 (word o 1)) -> word o2 i = word o i) ->
  traced_vt vt o2 = traced_vt vt o.
Proof.
  intros H1 H4 H3. unfold traced_vt.
  repeat match goal with
  | |- (if vt =? ?k then _ else _) = _ => destruct (Z.eqb_spec vt k) as [->|?];
     [keq; try (rewrite H4 by reflexivity); try (apply table_slots_ext; [apply H1; reflexivity|apply H3; reflexivity]);
      try (rewrite H1 by reflexivity); reflexivity|]
  end. reflexivity.
Qed.
Lemma saved_ext vt o o2 : (counts1 vt = true -> word o2 1 = word o 1) -> saved_vt vt o2 = saved_vt vt o.
Proof. intros H1. unfold saved_vt. destruct (Z.eqb_spec vt PN_TCONT) as [->|?]; [rewrite H1 by reflexivity|]; reflexivity. Qed.

Lemma shape_stable o o2 : (forall i, In i (slots o) -> 1 <= i) ->
  (forall i, 0 <= i -> ~ In i (slots o) -> word o2 i = word o i) ->
  o_vt o2 = o_vt o /\ traced c o2 = traced c o /\ saved_stack o2 = saved_stack o /\ type_size c o2 = type_size c o.
Proof.
  intros Hs Hw.
  assert (W0 : word o2 0 = word o 0). { apply Hw; [lia|]. intros I. apply Hs in I. lia. }
  assert (V : o_vt o2 = o_vt o) by (unfold o_vt; rewrite W0; reflexivity).
  assert (Fw : is_fwd o2 = is_fwd o) by (unfold is_fwd; rewrite V; reflexivity).
  assert (Fc : is_copied o2 = is_copied o) by (unfold is_copied; rewrite V; reflexivity).
  split; [exact V|]. unfold GcSpec.slots in Hw. rewrite !traced_vt_eq, !saved_vt_eq in *. unfold type_size. rewrite !ksize_vt_eq.
  rewrite V, Fw, Fc, W0.
  destruct (is_copied o || is_fwd o) eqn:E0.
  { apply vt_stub_not_cont in E0. unfold saved_vt. rewrite E0. auto. }
  destruct (o_vt o >? PN_TUSER) eqn:E1.
  { apply vt_user_not_cont in E1. unfold saved_vt. rewrite E1. auto. }
  assert (H1 : counts1 (o_vt o) = true -> word o2 1 = word o 1).
  { intros Hc. apply Hw; [lia|]. apply counts1_untraced. exact Hc. }
  assert (H4 : o_vt o = PN_TCLOSURE -> word o2 4 = word o 4).
  { intros Hc. apply Hw; [lia|]. rewrite Hc. unfold traced_vt, saved_vt. keq. intros I. apply in_app_or in I.
    destruct I as [[I|I]|[]]; [lia|]. apply In_zseq in I. lia. }
  assert (H3 : o_vt o = PN_TTABLE -> forall i, 3 <= i < 3 + nflags (lo32 (word o 1)) -> word o2 i = word o i).
  { intros Hc i Hi. apply Hw; [lia|]. rewrite Hc. unfold traced_vt, saved_vt. keq. intros I. apply in_app_or in I.
    destruct I as [I|[]]. apply table_slots_ge in I. lia. }
  rewrite (traced_ext _ o o2 H1 H4 H3), (saved_ext _ o o2 H1), (ksize_ext _ o o2 H1 H4). auto.
Qed.
End Shape.
