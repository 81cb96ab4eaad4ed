(** The evacuation invariant and the steps that preserve it. *)
From Coq Require Import ZifyBool.
From Verif Require Import Base Arr WordModel WordProofs LayoutModel GcModel GcSpec GcProofs.
Ltac Zify.zify_post_hook ::= Z.div_mod_to_equations.

Lemma nodup_snoc (l : list Z) a : NoDup l -> ~ In a l -> NoDup (l ++ [a]).
Proof.
  intros H N. apply NoDup_rev in H. rewrite <- (rev_involutive (l ++ [a])). apply NoDup_rev.
  rewrite rev_app_distr. cbn [rev app]. constructor; auto. rewrite <- in_rev. auto.
Qed.
Section Inv.
Variables (c : cfg) (h0 : heap) (start limit : Z).

Notation tsz := (GcSpec.tsz c h0).
Notation szs := (GcSpec.szs c h0).
Notation valid := (GcSpec.valid c h0).
Notation good_root := (GcSpec.good_root c h0).
Notation ready := (GcSpec.ready c h0 start limit).
Notation old_obj := (GcSpec.old_obj c h0).
Notation walk := (GcSpec.walk c h0).
(** the k-th evacuated object was copied behind the k-1 earlier ones *)
Definition placed (C : list Z) (a b : Z) : Prop := exists C1 C2, C = C1 ++ a :: C2 /\ b = start + szs C1.
Definition settled (w : Z) : Prop := PN_IS_PTR w = true -> c_from c w = false.
Hypothesis RD : ready.

Definition osim (C : list Z) (o o2 : obj) : Prop :=
  zlen (o_words o2) = zlen (o_words o) /\
  forall i, 0 <= i < zlen (o_words o) -> word o2 i = word o i \/
    (In i (slots c o) /\ exists n r, chain h0 n (word o i) r /\ c_from c r = true /\ placed C r (word o2 i)).
Record Inv (C : list Z) (s : gst) : Prop := mkInv {
  i_nd : NoDup C;
  i_c : forall a, In a C -> c_from c a = true /\ exists o, h0 a = Some o /\ is_fwd o = false;
  i_cur : g_cur s = start + szs C;
  i_un : forall a, c_from c a = true -> ~ In a C -> g_heap s a = h0 a;
  i_hdr : forall a b, placed C a b -> exists o1, g_heap s a = Some o1 /\ is_copied o1 = true /\ word o1 1 = b;
  i_cp : forall a b, placed C a b -> exists o o2, h0 a = Some o /\ g_heap s b = Some o2 /\ osim C o o2 /\ o_size o2 = type_size c o;
  i_ot : forall a, c_from c a = false -> ~ (start <= a < limit) ->
    match h0 a with
    | None => g_heap s a = None
    | Some o => exists o2, g_heap s a = Some o2 /\ osim C o o2 /\ o_size o2 = o_size o
    end;
  i_em : forall b o, start <= b < limit -> g_heap s b = Some o -> exists a, placed C a b
}.
(** the object an address stands for *)
Definition orig (C : list Z) (a : Z) (o : obj) : Prop :=
  (exists x, placed C x a /\ h0 x = Some o) \/
  (c_from c a = false /\ ~ (start <= a < limit) /\ h0 a = Some o).

(** *** sizes *)
Lemma tsz_ge a o : h0 a = Some o -> is_fwd o = false -> 16 <= tsz a /\ tsz a mod 8 = 0 /\ tsz a = type_size c o.
Proof.
  intros H F. unfold GcSpec.tsz. rewrite H. destruct (g_obj RD a o H) as (_ & _ & W). destruct (w_size c o W F) as ((A & _) & B & _). auto.
Qed.
Lemma szs_app l1 l2 : szs (l1 ++ l2) = szs l1 + szs l2.
Proof. induction l1 as [|a l1 IH]; cbn [szs app]; [lia|]. rewrite IH. lia. Qed.
Definition okc (C : list Z) : Prop := forall a, In a C -> exists o, h0 a = Some o /\ is_fwd o = false.
Lemma okc_app C1 C2 : okc (C1 ++ C2) -> okc C1 /\ okc C2.
Proof. intros H. split; intros a Ha; apply H, in_or_app; auto. Qed.
Lemma szs_nonneg l : okc l -> 0 <= szs l /\ szs l mod 8 = 0.
Proof.
  induction l as [|a l IH]; intros H; cbn [szs]; [split; reflexivity|].
  destruct (H a) as (o & Ha & F); [left; auto|]. destruct (tsz_ge a o Ha F) as (A & B & _).
  destruct IH as (I1 & I2). { intros x Hx. apply H. right. auto. } lia.
Qed.
Lemma szs_incl : forall C L, NoDup C -> (forall a, In a C -> In a L) -> (forall a, In a L -> 0 <= tsz a) -> szs C <= szs L.
Proof.
  induction C as [|a C IH]; intros L ND I NN; cbn [szs].
  - clear -NN. induction L as [|x L IH]; cbn [szs]; [lia|]. assert (0 <= tsz x) by (apply NN; left; auto).
    assert (0 <= szs L) by (apply IH; intros; apply NN; right; auto). lia.
  - destruct (in_split a L) as (L1 & L2 & ->); [apply I; left; auto|].
    rewrite szs_app. cbn [szs]. inversion ND as [|? ? Na ND']; subst.
    assert (szs C <= szs (L1 ++ L2)).
    { apply IH; auto.
      - intros x Hx. assert (In x (L1 ++ a :: L2)) as Hx2 by (apply I; right; auto). apply in_app_or in Hx2. apply in_or_app.
        destruct Hx2 as [?|[->|?]]; auto. contradiction.
      - intros x Hx. apply NN. apply in_app_or in Hx. apply in_or_app. destruct Hx; [auto|right; right; auto]. }
    rewrite szs_app in H. lia.
Qed.
Lemma tsz_nonneg a : 0 <= tsz a.
Proof.
  unfold GcSpec.tsz. destruct (h0 a) as [o|] eqn:E; [|lia]. destruct (g_obj RD a o E) as (_ & _ & W).
  destruct (is_fwd o) eqn:F; [|destruct (w_size c o W F); lia].
  unfold type_size. rewrite F, orb_true_r. unfold finish_size, PN_ALIGN. destruct (hi32 (word o 0) <? 16) eqn:E2; lia.
Qed.
Lemma szs_fits C : NoDup C -> (forall a, In a C -> c_from c a = true /\ exists o, h0 a = Some o /\ is_fwd o = false) ->
  start + szs C <= limit.
Proof.
  intros ND H. destruct (g_fit RD) as (L & NL & IL & HL).
  assert (szs C <= szs L); [|lia]. apply szs_incl; auto.
  - intros a Ha. destruct (H a Ha) as (F & o & Ho & Hf). eapply IL; eauto.
  - intros a _. apply tsz_nonneg.
Qed.
Lemma inv_okc C s : Inv C s -> okc C.
Proof. intros I a Ha. apply (i_c C s I a Ha). Qed.
Lemma inv_fits C s : Inv C s -> start + szs C <= limit.
Proof. intros I. apply szs_fits; [apply (i_nd C s I)|apply (i_c C s I)]. Qed.

(** *** placement *)
Lemma placed_In C a b : placed C a b -> In a C.
Proof. intros (C1 & C2 & -> & _). apply in_or_app. right. left. auto. Qed.
Lemma placed_app C E a b : placed C a b -> placed (C ++ E) a b.
Proof. intros (C1 & C2 & -> & ->). exists C1, (C2 ++ E). rewrite <- app_assoc. auto. Qed.
Lemma In_placed C a : In a C -> exists b, placed C a b.
Proof. intros H. destruct (in_split a C H) as (C1 & C2 & ->). exists (start + szs C1), C1, C2. auto. Qed.
Lemma split_unique : forall (C1 C2 D1 D2 : list Z) a, NoDup (C1 ++ a :: C2) -> C1 ++ a :: C2 = D1 ++ a :: D2 -> C1 = D1.
Proof.
  induction C1 as [|x C1 IH]; intros C2 [|y D1] D2 a ND E; cbn in *; auto.
  - injection E as -> E. inversion ND as [|? ? N ?]; subst. exfalso. apply N, in_or_app. right. left. auto.
  - injection E as -> E. inversion ND as [|? ? N ?]; subst. exfalso. apply N, in_or_app. right. left. auto.
  - injection E as -> E. inversion ND; subst. f_equal. eapply IH; eauto.
Qed.
Lemma placed_fun C a b b' : NoDup C -> placed C a b -> placed C a b' -> b = b'.
Proof.
  intros ND (C1 & C2 & E & ->) (D1 & D2 & E' & ->). subst C. rewrite (split_unique C1 C2 D1 D2 a ND E'). auto.
Qed.
Lemma placed_inj C a a' b : okc C -> placed C a b -> placed C a' b -> a = a'.
Proof.
  intros K (C1 & C2 & E & ->) (D1 & D2 & E' & Hb). subst C.
  revert D1 D2 a' E' Hb K. induction C1 as [|x C1 IH]; intros [|y D1] D2 a' E' Hb K; cbn in *.
  - congruence.
  - injection E' as <- E'. exfalso. destruct (K a) as (o & Ho & F); [left; auto|]. destruct (tsz_ge a o Ho F).
    assert (0 <= szs D1); [|lia]. apply szs_nonneg. intros z Hz. apply K. right. rewrite E'. apply in_or_app. auto.
  - injection E' as <- E'. exfalso. destruct (K x) as (o & Ho & F); [left; auto|]. destruct (tsz_ge x o Ho F).
    assert (0 <= szs C1); [|lia]. apply szs_nonneg. intros z Hz. apply K. right. apply in_or_app. auto.
  - injection E' as <- E'. eapply IH; eauto. + lia. + intros z Hz. apply K. right. auto.
Qed.
Lemma placed_range C s a b : Inv C s -> placed C a b -> start <= b /\ b + tsz a <= start + szs C /\ b < limit /\ 16 <= tsz a /\ b mod 8 = 0.
Proof.
  intros I P. pose proof (inv_fits C s I) as F. pose proof (inv_okc C s I) as K.
  destruct (K a (placed_In C a b P)) as (o & Ho & Hf). destruct (tsz_ge a o Ho Hf) as (T & T2 & _).
  destruct P as (C1 & C2 & -> & ->). destruct (okc_app C1 (a :: C2) K) as (K1 & K2).
  assert (okc C2) as K3 by (intros z Hz; apply K2; right; auto).
  destruct (szs_nonneg C1 K1) as (A1 & A2). destruct (szs_nonneg C2 K3) as (B1 & B2).
  rewrite szs_app in *. cbn [szs] in *. destruct (g_al RD) as (G & _). lia.
Qed.
Lemma placed_ptr C s a b : Inv C s -> placed C a b -> PN_IS_PTR b = true /\ c_from c b = false /\ h0 b = None.
Proof.
  intros I P. destruct (placed_range C s a b I P) as (A & B & Hl & T & M). destruct (g_al RD) as (G1 & G2 & G3).
  destruct (g_to RD b) as (T1 & T2); [lia|]. split; [|auto].
  rewrite PN_IS_PTR_eq by (unfold two64; lia). lia.
Qed.
Lemma placed_not_from C s a b : Inv C s -> placed C a b -> c_from c b = false.
Proof. intros I P. apply (placed_ptr C s a b I P). Qed.

(** *** shapes of related objects *)
Lemma osim_app C E o o2 : osim C o o2 -> osim (C ++ E) o o2.
Proof.
  intros (L & H). split; auto. intros i Hi. destruct (H i Hi) as [A|(A & n & r & B & F & P)]; auto.
  right. split; auto. exists n, r. split; auto. split; auto. apply placed_app. auto.
Qed.
Lemma osim_refl C o : osim C o o. Proof. split; auto. Qed.
Lemma osim_shape C o o2 : wfobj c o -> osim C o o2 ->
  o_vt o2 = o_vt o /\ traced c o2 = traced c o /\ saved_stack o2 = saved_stack o /\ type_size c o2 = type_size c o.
Proof.
  intros W (L & H). apply shape_stable.
  - intros i Hi. apply (w_slots c o W i Hi).
  - intros i Hi Hn. destruct (Z_lt_ge_dec i (zlen (o_words o))).
    + destruct (H i) as [A|(A & _)]; [lia|auto|contradiction].
    + unfold word. rewrite !znth_over by lia. reflexivity.
Qed.
Lemma osim_fwd C o o2 : wfobj c o -> osim C o o2 -> is_fwd o2 = is_fwd o /\ is_copied o2 = false.
Proof.
  intros W S. destruct (osim_shape C o o2 W S) as (V & _). pose proof (w_notcopied c o W) as N.
  unfold is_fwd, is_copied in *. rewrite V. auto.
Qed.
Lemma copied_not_fwd o : is_copied o = true -> is_fwd o = false.
Proof. unfold is_copied, is_fwd, POTION_COPIED, POTION_FWD. lia. Qed.
Lemma placed_not_stub C s a b : Inv C s -> placed C a b -> exists o2, g_heap s b = Some o2 /\ is_fwd o2 = false.
Proof.
  intros I P. destruct (i_cp C s I a b P) as (o & o2 & H & H2 & S & _). exists o2. split; auto.
  destruct (i_c C s I a (placed_In C a b P)) as (_ & o' & H' & F). replace o' with o in * by congruence.
  destruct (g_obj RD a o H) as (_ & _ & W). destruct (osim_fwd C o o2 W S) as (A & _). congruence.
Qed.
Lemma fwd_traced o : is_fwd o = true -> In 1 (traced c o).
Proof. intros F. unfold traced. rewrite F, orb_true_r. left. auto. Qed.
Lemma fwd_slots1 o : is_fwd o = true -> slots c o = [1].
Proof.
  intros F. unfold GcSpec.slots, traced, saved_stack. rewrite F, orb_true_r.
  rewrite (vt_stub_not_cont o) by (rewrite F; apply orb_true_r). reflexivity.
Qed.

(** where a (possibly already updated) word leads now *)
Lemma resolve_now C s : Inv C s -> forall n w r, chain h0 n w r -> forall w2,
  (w2 = w \/ (c_from c r = true /\ placed C r w2)) ->
  exists m v, (m <= n)%nat /\ chain (g_heap s) m w2 v /\ (v = r \/ c_from c v = false) /\
    (PN_IS_PTR w2 = true -> c_from c w2 = true -> v = r /\ c_from c r = true) /\
    (PN_IS_PTR w2 = true -> PN_IS_PTR v = true).
Proof.
  intros I n w r H. induction H as [v P|v o P Hh Hf|n v o r P Hh Hf Hc IH]; intros w2 [->|(F & Pl)].
  all: try (destruct (placed_not_stub C s _ _ I Pl) as (o2 & H2 & F2);
            destruct (placed_ptr C s _ _ I Pl) as (Pp & Pf & _);
            exists 0%nat, w2; split; [lia|]; split; [eapply ch_obj; eauto|]; split; [right; auto|]; split; [congruence|auto]).
  - exists 0%nat, v. split; [lia|]. split; [apply ch_imm; auto|]. split; [left; auto|]. split; congruence.
  - exists 0%nat, v. split; [lia|].
    assert (X : exists o2, g_heap s v = Some o2 /\ is_fwd o2 = false).
    { destruct (c_from c v) eqn:Fv.
      - destruct (in_dec Z.eq_dec v C) as [In_|Nin].
        + destruct (In_placed C v In_) as (b & Pb). destruct (i_hdr C s I v b Pb) as (o1 & H1 & K & _).
          exists o1. split; auto. apply copied_not_fwd. auto.
        + rewrite (i_un C s I v Fv Nin). eauto.
      - destruct (Z_le_dec start v) as [L1|L1]; [destruct (Z_lt_dec v limit) as [L2|L2]|].
        + destruct (g_to RD v) as (N & _); [lia|]. congruence.
        + pose proof (i_ot C s I v Fv ltac:(lia)) as X. rewrite Hh in X. destruct X as (o2 & A & B & _). exists o2. split; auto.
          destruct (g_obj RD v o Hh) as (_ & _ & W). destruct (osim_fwd C o o2 W B). congruence.
        + pose proof (i_ot C s I v Fv ltac:(lia)) as X. rewrite Hh in X. destruct X as (o2 & A & B & _). exists o2. split; auto.
          destruct (g_obj RD v o Hh) as (_ & _ & W). destruct (osim_fwd C o o2 W B). congruence. }
    destruct X as (o2 & A & B). split; [eapply ch_obj; eauto|]. split; [left; auto|]. split; auto.
  - destruct (g_stub RD v o Hh Hf) as (Sp & Sf). destruct (c_from c v) eqn:Fv.
    + assert (Nin : ~ In v C). { intros In_. destruct (i_c C s I v In_) as (_ & o' & H' & F'). congruence. }
      destruct (IH (word o 1)) as (m & v' & Hm & Hch & Hv & Hw & Hp); [left; auto|].
      specialize (Sf eq_refl). destruct (Hw Sp Sf) as (-> & Fr).
      exists (S m), r. split; [lia|]. split; [eapply ch_stub; eauto; rewrite (i_un C s I v Fv Nin); auto|].
      split; [left; auto|]. split; auto.
    + assert (Nt : ~ (start <= v < limit)). { intros Hin. destruct (g_to RD v Hin). congruence. }
      pose proof (i_ot C s I v Fv Nt) as X. rewrite Hh in X. destruct X as (o2 & A & B & _).
      destruct (g_obj RD v o Hh) as (_ & _ & W). destruct (osim_fwd C o o2 W B) as (Ff & _).
      assert (Hw2 : word o2 1 = word o 1 \/ (c_from c r = true /\ placed C r (word o2 1))).
      { destruct B as (L & B). destruct (B 1) as [E|(_ & n' & r' & Ch & Fr & Pr)].
        - pose proof (w_len c o W). lia.
        - auto.
        - destruct (chain_det h0 _ _ _ Hc _ _ Ch) as (_ & <-). auto. }
      destruct (IH _ Hw2) as (m & v' & Hm & Hch & Hv & Hw & Hp).
      exists (S m), v'. split; [lia|]. split; [eapply ch_stub; eauto; congruence|]. split; auto. split; [congruence|].
      intros _. apply Hp. destruct Hw2 as [->|(_ & Pr)]; auto. apply (placed_ptr C s _ _ I Pr).
Qed.

(** *** evacuating one object *)
Definition ext (s s' : gst) : Prop :=
  (forall a o, c_from c a = false -> g_heap s a = Some o -> g_heap s' a = Some o) /\ g_keep s' = g_keep s.
Lemma ext_refl s : ext s s. Proof. split; auto. Qed.

Lemma kept_ztake o : wfobj c o -> is_fwd o = false -> ztake (kept o (type_size c o)) (o_words o) = o_words o.
Proof.
  intros W F. destruct (w_size c o W F) as (_ & _ & ->). unfold ztake, zlen. rewrite Nat2Z.id. apply firstn_all.
Qed.
Lemma forward_ok C s r o : Inv C s -> c_from c r = true -> h0 r = Some o -> is_fwd o = false ->
  exists s' b E, forward c s r = Ok (s', b) /\ Inv (C ++ E) s' /\ placed (C ++ E) r b /\ ext s s'.
Proof.
  intros I F Hr Hf. destruct (g_obj RD r o Hr) as (Pr & _ & W). unfold forward.
  destruct (in_dec Z.eq_dec r C) as [In_|Nin].
  - destruct (In_placed C r In_) as (b & Pb). destruct (i_hdr C s I r b Pb) as (o1 & -> & -> & Ew).
    exists s, b, []. rewrite app_nil_r, Ew. split; auto. split; auto. split; auto. apply ext_refl.
  - rewrite (i_un C s I r F Nin), Hr, (w_notcopied c o W).
    destruct (w_size c o W Hf) as ((S1 & S2) & S3 & S4). pose proof (w_len c o W) as S5.
    unfold gc_copy. destruct (type_size c o =? 0) eqn:Z0; [lia|].
    destruct (type_size c o >? o_size o) eqn:Z1; [lia|]. rewrite S4.
    destruct (zlen (o_words o) >? zlen (o_words o)) eqn:Z2; [lia|]. cbn [orb].
    rewrite wr_ok by lia. cbn [bind]. rewrite wr_ok by (rewrite zlen_upd by lia; lia). cbn [bind].
    rewrite <- S4, (kept_ztake o W Hf). rewrite (i_cur C s I).
    set (dst := start + szs C).
    set (hd := POTION_COPIED + type_size c o * 4294967296).
    set (o1 := mkObj (o_size o) (upd (upd (o_words o) 0 hd) 1 dst)).
    set (cp := mkObj (type_size c o) (o_words o)).
    set (s' := mkG _ _ _). exists s', dst, [r].
    assert (ND : NoDup (C ++ [r])).
    { apply nodup_snoc; [apply (i_nd C s I)|exact Nin]. }
    assert (IC : forall a, In a (C ++ [r]) -> c_from c a = true /\ exists o, h0 a = Some o /\ is_fwd o = false).
    { intros a Ha. apply in_app_or in Ha. destruct Ha as [Ha|[<-|[]]]; [apply (i_c C s I a Ha)|eauto]. }
    pose proof (szs_fits _ ND IC) as Fit. rewrite szs_app in Fit. cbn [szs] in Fit.
    destruct (tsz_ge r o Hr Hf) as (T1 & T2 & T3).
    destruct (szs_nonneg C (inv_okc C s I)) as (Nn & _).
    assert (Dt : start <= dst < limit) by (unfold dst; lia).
    destruct (g_to RD dst Dt) as (D0 & Df).
    assert (Nr : r <> dst) by congruence.
    assert (Hh' : forall x, x <> r -> x <> dst -> g_heap s' x = g_heap s x).
    { intros x N1 N2. unfold s'. cbn [g_heap]. rewrite !hset_other by auto. auto. }
    assert (Hd : g_heap s' dst = Some cp). { unfold s'. cbn [g_heap]. rewrite hset_other by auto. apply hset_same. }
    assert (Hr1 : g_heap s' r = Some o1). { unfold s'. cbn [g_heap]. apply hset_same. }
    assert (Pd : placed (C ++ [r]) r dst). { exists C, []. auto. }
    assert (Pcase : forall a b, placed (C ++ [r]) a b -> (a = r /\ b = dst) \/ (placed C a b /\ a <> r)).
    { intros a b P. destruct (Z.eq_dec a r) as [->|N].
      - left. split; auto. eapply placed_fun; eauto.
      - right. split; auto. assert (In a C) as Ia.
        { apply placed_In in P. apply in_app_or in P. destruct P as [?|[?|[]]]; auto. congruence. }
        destruct (In_placed C a Ia) as (b' & Pb'). rewrite (placed_fun _ _ _ _ ND P (placed_app C [r] a b' Pb')). auto. }
    assert (Pd2 : forall a b, placed C a b -> b <> dst /\ b <> r).
    { intros a b P. destruct (placed_range C s a b I P) as (A1 & A2 & _ & A3 & _). split; [unfold dst; lia|].
      intros ->. pose proof (placed_not_from C s a r I P). congruence. }
    split; [reflexivity|]. split; [|split; [exact Pd|]].
    + constructor.
      * exact ND.
      * exact IC.
      * unfold s', dst. cbn [g_cur]. rewrite szs_app. cbn [szs]. lia.
      * intros a Fa Na. rewrite Hh'.
        -- apply (i_un C s I a Fa). intros X. apply Na, in_or_app. auto.
        -- intros ->. apply Na, in_or_app. right. left. auto.
        -- congruence.
      * intros a b P. destruct (Pcase a b P) as [(-> & ->)|(P' & N)].
        -- exists o1. split; auto. unfold is_copied, o_vt, word, o1. cbn [o_words].
           rewrite znth_upd_other by (rewrite ?zlen_upd by lia; lia). rewrite znth_upd_same by lia.
           rewrite znth_upd_same by (rewrite zlen_upd by lia; lia). split; auto.
           unfold hd, lo32, POTION_COPIED. rewrite Z.mod_add by lia. reflexivity.
        -- destruct (i_hdr C s I a b P') as (o' & A & B). exists o'. split; auto. rewrite Hh'; auto.
           intros ->. destruct (i_c C s I dst (placed_In _ _ _ P')) as (X & _). congruence.
      * intros a b P. destruct (Pcase a b P) as [(-> & ->)|(P' & N)].
        -- exists o, cp. split; auto. split; auto. split; [split; auto|reflexivity].
        -- destruct (i_cp C s I a b P') as (oa & o2 & A & B & S & Z). exists oa, o2. split; auto.
           destruct (Pd2 a b P'). split; [rewrite Hh' by auto; auto|]. split; auto. apply osim_app. auto.
      * intros a Fa Na. rewrite Hh' by (try congruence; intros ->; contradiction).
        pose proof (i_ot C s I a Fa Na) as X. destruct (h0 a); auto. destruct X as (o2 & A & B & Z). exists o2. split; auto. split; auto. apply osim_app. auto.
      * intros b ob Hb Eb. destruct (Z.eq_dec b dst) as [->|N]; [exists r; auto|].
        rewrite Hh' in Eb by (auto; intros ->; destruct (g_to RD r Hb); congruence).
        destruct (i_em C s I b ob Hb Eb) as (a & P). exists a. apply placed_app. auto.
    + split; [|reflexivity]. intros a oa Fa Ha. rewrite Hh'; auto; [congruence|].
      intros ->. destruct (i_em C s I dst oa Dt Ha) as (a & P). destruct (Pd2 a dst P). congruence.
Qed.

(** *** updating one word *)
(** [w] in the beginning, [w2] now *)
Definition wsim (C : list Z) (w w2 : Z) : Prop :=
  w2 = w \/ exists n r, chain h0 n w r /\ c_from c r = true /\ placed C r w2.
Lemma wsim_app C E w w2 : wsim C w w2 -> wsim (C ++ E) w w2.
Proof. intros [H|(n & r & A & B & P)]; [left; auto|right]. exists n, r. split; auto. split; auto. apply placed_app. auto. Qed.
Lemma wsim_chain C n w r w2 : chain h0 n w r -> wsim C w w2 -> w2 = w \/ (c_from c r = true /\ placed C r w2).
Proof. intros H [A|(m & r' & A & B & P)]; auto. destruct (chain_det h0 _ _ _ H _ _ A) as (_ & <-). auto. Qed.
Lemma chain_valid_obj n w r : chain h0 n w r -> PN_IS_PTR w = true -> PN_IS_PTR r = true.
Proof.
  induction 1 as [v P|v o P Hh Hf|n v o r P Hh Hf Hc IH]; intros Pw; auto. apply IH. apply (g_stub RD v o Hh Hf).
Qed.
Lemma update_ok C s w w2 : Inv C s -> valid w -> wsim C w w2 ->
  exists s' w3 E, update c s w2 = Ok (s', w3) /\ Inv (C ++ E) s' /\ ext s s' /\ wsim (C ++ E) w w3 /\ settled w3.
Proof.
  intros I (n & r & Hn & Ch) Hw. unfold update. destruct (PN_IS_PTR w2) eqn:P2.
  2: { exists s, w2, []. rewrite app_nil_r. split; auto. split; auto. split; [apply ext_refl|]. split; auto. intros X. congruence. }
  destruct (resolve_now C s I n w r Ch w2 (wsim_chain C n w r w2 Ch Hw)) as (m & v & Hm & Chv & Hv & Hs & Hp).
  rewrite (chain_fwd _ _ _ _ Chv) by lia. cbn [bind]. destruct (c_from c v) eqn:Fv.
  - destruct Hv as [->|X]; [|congruence].
    destruct (chain_end h0 n w r Ch (Hp P2)) as (o & Ho & Hf).
    destruct (forward_ok C s r o I Fv Ho Hf) as (s' & b & E & -> & I' & Pl & X). exists s', b, E.
    split; auto. split; auto. split; auto. split; [right; exists n, r; auto|].
    intros _. eapply placed_not_from; eauto.
  - exists s, w2, []. rewrite app_nil_r. split; auto. split; auto. split; [apply ext_refl|]. split; auto.
    intros _. destruct (c_from c w2) eqn:F2; auto. destruct (Hs P2 eq_refl). congruence.
Qed.
Lemma real_type_ok o : wfobj c o -> is_fwd o = false -> real_type c o = true.
Proof.
  intros W F. destruct (w_size c o W F) as (S & _). pose proof (g_types RD) as G. pose proof (w_notcopied c o W) as N.
  unfold real_type. rewrite N. unfold type_size in S. rewrite F, N in S. cbn [orb] in *.
  destruct (o_vt o <? PN_TNIL) eqn:E1; [lia|]. destruct (o_vt o >? PN_TUSER) eqn:E2.
  - destruct (o_vt o <? PN_TNIL + c_ntypes c) eqn:E3; [|lia]. lia.
  - unfold PN_TUSER in *. lia.
Qed.
(** the result of treating a word of a stack *)
Definition rsim (C : list Z) (w w3 : Z) : Prop :=
  wsim C w w3 /\ (PN_IS_PTR w = true -> h0 w <> None -> settled w3) /\ (PN_IS_PTR w = false -> w3 = w).
Lemma heap_none C s w : Inv C s -> h0 w = None -> g_heap s w = None \/ exists r, placed C r w.
Proof.
  intros I H. destruct (c_from c w) eqn:F.
  - left. rewrite (i_un C s I w F); auto. intros X. destruct (i_c C s I w X) as (_ & o & Ho & _). congruence.
  - destruct (g_heap s w) as [o|] eqn:E; [|auto]. right.
    assert (Hin : start <= w < limit).
    { destruct (Z_le_dec start w); [destruct (Z_lt_dec w limit); [lia|]|];
        pose proof (i_ot C s I w F ltac:(lia)) as X; rewrite H in X; congruence. }
    apply (i_em C s I w o Hin E).
Qed.
Lemma wsim_imm C s w w2 : Inv C s -> wsim C w w2 -> PN_IS_PTR w = false -> w2 = w.
Proof.
  intros I [->|(n & r & Ch & F & Pl)] P; auto. rewrite (chain_ptr _ _ _ _ Ch P) in *.
  destruct (i_c C s I w (placed_In C w w2 Pl)) as (_ & o & Ho & _). destruct (g_obj RD w o Ho). congruence.
Qed.
Lemma mark_word_ok C s w w2 : Inv C s -> good_root w -> wsim C w w2 ->
  exists s' w3 E, mark_word c s w2 = Ok (s', w3) /\ Inv (C ++ E) s' /\ ext s s' /\ rsim (C ++ E) w w3 /\ (w3 = w2 \/ settled w3).
Proof.
  intros I G Hw. pose proof (wsim_imm C s w w2 I Hw) as Hi.
  assert (Same : (PN_IS_PTR w = true -> h0 w <> None -> settled w2) ->
    exists s' w3 E, Ok (s, w2) = Ok (s', w3) /\ Inv (C ++ E) s' /\ ext s s' /\ rsim (C ++ E) w w3 /\ (w3 = w2 \/ settled w3)).
  { intros X. exists s, w2, []. rewrite app_nil_r. split; auto. split; auto. split; [apply ext_refl|]. split; [split; auto|left; auto]. }
  (* the word has already been updated, or is the address of a copy by accident *)
  assert (Placed : forall r, placed C r w2 ->
    exists s' w3 E, mark_word c s w2 = Ok (s', w3) /\ Inv (C ++ E) s' /\ ext s s' /\ rsim (C ++ E) w w3 /\ (w3 = w2 \/ settled w3)).
  { intros r Pl. assert (S2 : PN_IS_PTR w = true -> h0 w <> None -> settled w2).
    { intros _ _ _. eapply placed_not_from; eauto. }
    unfold mark_word. destruct (c_region c w2); [|apply Same; auto].
    destruct (placed_not_stub C s r w2 I Pl) as (o2 & H2 & F2). destruct (placed_ptr C s r w2 I Pl) as (P2 & Pf & _).
    rewrite H2, andb_false_r. rewrite (chain_fwd _ 0 w2 w2) by (try (eapply ch_obj; eauto); apply (g_depth RD)).
    cbn [bind]. rewrite Pf. apply Same; auto. }
  destruct Hw as [->|(n & r & Ch & F & Pl)]; [|eapply Placed; eauto].
  unfold GcSpec.good_root in G. destruct (c_region c w) eqn:Er.
  2: { unfold mark_word. rewrite Er. apply Same. intros P Hn. destruct (h0 w) as [o|] eqn:Eo; [|congruence].
       destruct (g_obj RD w o Eo) as (_ & X & _). congruence. }
  destruct (G eq_refl) as [(P & n & r & Hn & Ch)|(Hn & J)].
  - destruct (resolve_now C s I n w r Ch w (or_introl eq_refl)) as (m & v & Hm & Chv & Hv & Hs & Hp).
    assert (Hh : exists o2, g_heap s w = Some o2). { inversion Chv; subst; eauto; congruence. }
    destruct Hh as (o2 & Hh). unfold mark_word. rewrite Er, Hh, andb_false_r, (chain_fwd _ _ _ _ Chv) by lia. cbn [bind].
    destruct (c_from c v) eqn:Fv.
    + destruct Hv as [->|X]; [|congruence]. specialize (Hp P).
      destruct (chain_end h0 n w r Ch Hp) as (o & Ho & Hf). destruct (chain_end _ _ _ _ Chv Hp) as (o3 & Ho3 & Hf3).
      rewrite Ho3. assert (Rt : real_type c o3 = true).
      { destruct (in_dec Z.eq_dec r C) as [Ir|Nr].
        - destruct (In_placed C r Ir) as (b & Pb). destruct (i_hdr C s I r b Pb) as (o1 & A & B & _).
          replace o3 with o1 by congruence. unfold real_type. rewrite B. reflexivity.
        - rewrite (i_un C s I r Fv Nr) in Ho3. replace o3 with o by congruence.
          apply real_type_ok; auto. apply (g_obj RD r o Ho). }
      rewrite Rt. destruct (forward_ok C s r o I Fv Ho Hf) as (s' & b & E & -> & I' & Pl & X). exists s', b, E.
      assert (Sb : settled b) by (intros _; eapply placed_not_from; eauto).
      split; auto. split; auto. split; auto. split; [|right; auto]. split; [right; exists n, r; auto|]. split; [auto|congruence].
    + apply Same. intros _ _ _. destruct (c_from c w) eqn:Fw; auto. destruct (Hs P eq_refl). congruence.
  - destruct (heap_none C s w I Hn) as [Hh|(r & Pl)]; [|eapply Placed; eauto].
    unfold mark_word. rewrite Er, Hh, andb_true_r, J. destruct (PN_IS_PTR w) eqn:P; [apply Same; congruence|].
    rewrite (chain_fwd _ 0 w w) by (try (apply ch_imm; auto); apply (g_depth RD)). cbn [bind]. rewrite Hh, J.
    destruct (c_from c w); apply Same; congruence.
Qed.

(** *** writing the word back *)
Lemma orig_now C s a o : Inv C s -> orig C a o -> c_from c a = false /\ wfobj c o /\
  exists o2, g_heap s a = Some o2 /\ osim C o o2.
Proof.
  intros I [(x & P & Ho)|(F & N & Ho)].
  - split; [eapply placed_not_from; eauto|]. split; [apply (g_obj RD x o Ho)|].
    destruct (i_cp C s I x a P) as (o' & o2 & A & B & S & _). replace o' with o in * by congruence. eauto.
  - split; auto. split; [apply (g_obj RD a o Ho)|]. pose proof (i_ot C s I a F N) as X. rewrite Ho in X.
    destruct X as (o2 & A & B & _). eauto.
Qed.
Lemma orig_app C E a o : orig C a o -> orig (C ++ E) a o.
Proof. intros [(x & P & Ho)|H]; [left; exists x; split; auto; apply placed_app; auto|right; auto]. Qed.
Lemma osim_set C o o2 i w3 : osim C o o2 -> In i (slots c o) -> 1 <= i < zlen (o_words o) -> wsim C (word o i) w3 ->
  osim C o (mkObj (o_size o2) (upd (o_words o2) i w3)).
Proof.
  intros (L & H) Hs Hi Hw. split; cbn [o_words].
  - rewrite zlen_upd by lia. auto.
  - intros j Hj. unfold word. cbn [o_words]. destruct (Z.eq_dec j i) as [->|N].
    + rewrite znth_upd_same by lia. destruct Hw as [->|(n & r & A & B & P)]; [left; auto|right].
      split; auto. exists n, r. auto.
    + rewrite znth_upd_other by lia. apply (H j Hj).
Qed.
Lemma set_inv C s a o o2 i w3 : Inv C s -> orig C a o -> g_heap s a = Some o2 -> In i (slots c o) ->
  wsim C (word o i) w3 ->
  Inv C (mkG (hset (g_heap s) a (mkObj (o_size o2) (upd (o_words o2) i w3))) (g_cur s) (g_keep s)).
Proof.
  intros I O Ha Hs Hw. destruct (orig_now C s a o I O) as (F & W & o2' & Ha' & S).
  replace o2' with o2 in * by congruence. clear Ha'.
  pose proof (w_slots c o W i Hs) as Hi. pose proof (osim_set C o o2 i w3 S Hs Hi Hw) as S'.
  assert (Hother : forall x, c_from c x = true -> hset (g_heap s) a (mkObj (o_size o2) (upd (o_words o2) i w3)) x = g_heap s x).
  { intros x Fx. apply hset_other. congruence. }
  constructor; cbn [g_heap g_cur].
  - apply (i_nd C s I).
  - apply (i_c C s I).
  - apply (i_cur C s I).
  - intros x Fx Nx. rewrite Hother by auto. apply (i_un C s I x Fx Nx).
  - intros x b P. rewrite Hother; [apply (i_hdr C s I x b P)|]. apply (i_c C s I x). eapply placed_In; eauto.
  - intros x b P. destruct (i_cp C s I x b P) as (ox & ob & A & B & Sx & Zx). destruct (Z.eq_dec b a) as [->|N].
    + replace ob with o2 in * by congruence. exists ox. eexists. split; [exact A|]. split; [apply hset_same|].
      assert (Eo : ox = o).
      { destruct O as [(x' & P' & Hx')|(_ & N' & _)].
        - assert (x = x') by (eapply placed_inj; eauto; eapply inv_okc; eauto). subst x'. congruence.
        - exfalso. apply N'. destruct (placed_range C s x a I P). lia. }
      rewrite Eo. split; [exact S'|]. cbn [o_size]. congruence.
    + exists ox, ob. split; auto. split; [rewrite hset_other by auto; auto|]. auto.
  - intros x Fx Nx. pose proof (i_ot C s I x Fx Nx) as X. destruct (Z.eq_dec x a) as [->|N].
    + destruct O as [(x' & P' & Hx')|(_ & N' & Ho)].
      * exfalso. apply Nx. destruct (placed_range C s x' a I P'). lia.
      * rewrite Ho in *. destruct X as (o3 & A & B & Z3). replace o3 with o2 in * by congruence.
        eexists. split; [apply hset_same|]. split; [exact S'|]. auto.
    + destruct (h0 x) as [ox|]; [|rewrite hset_other by auto; auto].
      destruct X as (o3 & A & B & Z3). exists o3. rewrite hset_other by auto. auto.
  - intros b ob Hb Eb. destruct (Z.eq_dec b a) as [->|N].
    + apply (i_em C s I a o2 Hb Ha).
    + rewrite hset_other in Eb by auto. apply (i_em C s I b ob Hb Eb).
Qed.

(** *** what a step may do to the surviving objects: words only change to settled ones *)
Definition wext_h (s s' : gst) : Prop :=
  forall a o, c_from c a = false -> g_heap s a = Some o -> exists o', g_heap s' a = Some o' /\
    forall i, 0 <= i -> word o' i = word o i \/ settled (word o' i).
Definition wext_k (s s' : gst) : Prop := incl (g_keep s) (g_keep s') /\
  (forall v, In v (g_keep s') -> In v (g_keep s) \/ (c_from c v = false /\ g_heap s' v <> None)).
Definition wext (s s' : gst) : Prop := wext_h s s' /\ wext_k s s'.
Lemma wext_same s s' : wext_h s s' -> g_keep s' = g_keep s -> wext s s'.
Proof. intros H E. split; auto. unfold wext_k. rewrite E. split; [apply incl_refl|auto]. Qed.
Lemma wext_refl s : wext s s.
Proof. apply wext_same; auto. intros a o F H. exists o. split; auto. Qed.
Lemma wext_trans s1 s2 s3 : wext s1 s2 -> wext s2 s3 -> wext s1 s3.
Proof.
  intros (H1 & K1 & J1) (H2 & K2 & J2). split; [|split].
  - intros a o F H. destruct (H1 a o F H) as (o2 & A & B). destruct (H2 a o2 F A) as (o3 & A3 & B3).
    exists o3. split; auto. intros i Hi. destruct (B3 i Hi) as [E|S]; auto. rewrite E. auto.
  - eapply incl_tran; eauto.
  - intros v Hv. destruct (J2 v Hv) as [Hv2|]; auto. destruct (J1 v Hv2) as [|(F & N)]; auto. right. split; auto.
    destruct (g_heap s2 v) as [o|] eqn:E; [|congruence]. destruct (H2 v o F E) as (o' & -> & _). discriminate.
Qed.
Lemma ext_wext s s' : ext s s' -> wext s s'.
Proof. intros (H & K). apply wext_same; auto. intros a o F Ha. exists o. split; auto. Qed.
(** settled words stay settled *)
Definition settled_at (s : gst) (a i : Z) : Prop := exists o, g_heap s a = Some o /\ settled (word o i).
Lemma settled_wext s s' a i : wext s s' -> c_from c a = false -> 0 <= i -> settled_at s a i -> settled_at s' a i.
Proof.
  intros (X & _) F Hi (o & Ho & S). destruct (X a o F Ho) as (o' & Ho' & B). exists o'. split; auto.
  destruct (B i Hi) as [->|]; auto.
Qed.

Lemma at_slot_ok C s a o i : Inv C s -> orig C a o -> In i (traced c o) ->
  exists s' E, at_slot (update c) s a i = Ok s' /\ Inv (C ++ E) s' /\ wext s s' /\ settled_at s' a i /\ g_keep s' = g_keep s.
Proof.
  intros I O Hi. destruct (orig_now C s a o I O) as (F & W & o2 & Ha & S).
  assert (Hs : In i (slots c o)) by (apply in_or_app; auto).
  pose proof (w_slots c o W i Hs) as Hr. pose proof S as (L & Hw). unfold at_slot. rewrite Ha, rd_ok by lia. cbn [bind].
  fold (word o2 i).
  assert (V : valid (word o i)). { destruct O as [(x & _ & Ho)|(_ & _ & Ho)]; eapply (g_val RD); eauto. }
  assert (Sw : wsim C (word o i) (word o2 i)).
  { destruct (Hw i) as [E|(_ & n & r & A & B & P)]; [lia|left; auto|right; exists n, r; auto]. }
  destruct (update_ok C s (word o i) (word o2 i) I V Sw) as (s1 & w3 & E & -> & I1 & X & S3 & Set3). cbn [bind].
  destruct X as (X & K). rewrite (X a o2 F Ha), wr_ok by lia. cbn [bind].
  eexists. exists E. split; [reflexivity|]. split.
  { eapply set_inv; eauto. apply orig_app. eauto. }
  split; [|split; [|exact K]].
  - apply wext_same; [|exact K]. intros x ox Fx Hx. cbn [g_heap]. destruct (Z.eq_dec x a) as [->|N].
    + replace ox with o2 by congruence. eexists. split; [apply hset_same|]. intros j Hj. unfold word. cbn [o_words].
      destruct (Z.eq_dec j i) as [->|Nj]; [rewrite znth_upd_same by lia; auto|]. rewrite znth_upd_other by lia. auto.
    + exists ox. rewrite hset_other by auto. split; auto.
  - eexists. cbn [g_heap]. split; [apply hset_same|]. unfold word. cbn [o_words]. rewrite znth_upd_same by lia. auto.
Qed.
Lemma at_slots_ok a o : forall l C s, Inv C s -> orig C a o -> (forall i, In i l -> In i (traced c o)) ->
  exists s' E, at_slots (update c) s a l = Ok s' /\ Inv (C ++ E) s' /\ wext s s' /\ (forall i, In i l -> settled_at s' a i) /\ g_keep s' = g_keep s.
Proof.
  induction l as [|i l IH]; intros C s I O Hl; cbn [at_slots].
  - exists s, []. rewrite app_nil_r. split; auto. split; auto. split; [apply wext_refl|]. split; auto. intros i [].
  - destruct (at_slot_ok C s a o i I O) as (s1 & E1 & -> & I1 & X1 & S1 & K1); [apply Hl; left; auto|]. cbn [bind].
    destruct (IH (C ++ E1) s1 I1 (orig_app C E1 a o O)) as (s2 & E2 & -> & I2 & X2 & S2 & K2); [intros j Hj; apply Hl; right; auto|].
    exists s2, (E1 ++ E2). rewrite app_assoc. split; auto. split; auto. split; [eapply wext_trans; eauto|]. split; [|congruence].
    intros j [<-|Hj]; auto. eapply settled_wext; eauto; [apply (orig_now C s a o I O)|].
    assert (In i (slots c o)) by (apply in_or_app; left; apply Hl; left; auto).
    destruct (orig_now C s a o I O) as (_ & W & _). pose proof (w_slots c o W i H). lia.
Qed.

(** the same for the slots of a saved stack *)
Lemma orig_saved C a o i : orig C a o -> In i (saved_stack o) -> good_root (word o i).
Proof. intros [(x & _ & Ho)|(_ & _ & Ho)] Hi; eapply (g_sav RD); eauto. Qed.
Lemma at_saved_ok C s a o i : Inv C s -> orig C a o -> In i (saved_stack o) ->
  exists s' E, at_slot (mark_word c) s a i = Ok s' /\ Inv (C ++ E) s' /\ wext s s' /\
    (h0 (word o i) <> None -> settled_at s' a i) /\ g_keep s' = g_keep s.
Proof.
  intros I O Hi. destruct (orig_now C s a o I O) as (F & W & o2 & Ha & S).
  assert (Hs : In i (slots c o)) by (apply in_or_app; auto).
  pose proof (w_slots c o W i Hs) as Hr. pose proof S as (L & Hw). unfold at_slot. rewrite Ha, rd_ok by lia. cbn [bind].
  fold (word o2 i). pose proof (orig_saved C a o i O Hi) as V.
  assert (Sw : wsim C (word o i) (word o2 i)).
  { destruct (Hw i) as [E|(_ & n & r & A & B & P)]; [lia|left; auto|right; exists n, r; auto]. }
  destruct (mark_word_ok C s (word o i) (word o2 i) I V Sw) as (s1 & w3 & E & -> & I1 & X & (S3 & Set3 & _) & Ch). cbn [bind].
  destruct X as (X & K). rewrite (X a o2 F Ha), wr_ok by lia. cbn [bind].
  eexists. exists E. split; [reflexivity|]. split.
  { eapply set_inv; eauto. apply orig_app. eauto. }
  split; [|split; [|exact K]].
  - apply wext_same; [|exact K]. intros x ox Fx Hx. cbn [g_heap]. destruct (Z.eq_dec x a) as [->|N].
    + replace ox with o2 by congruence. eexists. split; [apply hset_same|]. intros j Hj. unfold word. cbn [o_words].
      destruct (Z.eq_dec j i) as [->|Nj]; [rewrite znth_upd_same by lia; destruct Ch; auto|]. rewrite znth_upd_other by lia. auto.
    + exists ox. rewrite hset_other by auto. split; auto.
  - intros Hn. eexists. cbn [g_heap]. split; [apply hset_same|]. unfold word at 1. cbn [o_words]. rewrite znth_upd_same by lia.
    apply Set3; auto. destruct (h0 (word o i)) as [ow|] eqn:Ew; [|congruence]. apply (g_obj RD _ _ Ew).
Qed.
Lemma slot_nonneg C s a o i : Inv C s -> orig C a o -> In i (slots c o) -> c_from c a = false /\ 0 <= i.
Proof.
  intros I O Hi. destruct (orig_now C s a o I O) as (F & W & _). split; auto. pose proof (w_slots c o W i Hi). lia.
Qed.
Lemma at_saveds_ok a o : forall l C s, Inv C s -> orig C a o -> (forall i, In i l -> In i (saved_stack o)) ->
  exists s' E, at_slots (mark_word c) s a l = Ok s' /\ Inv (C ++ E) s' /\ wext s s' /\
    (forall i, In i l -> h0 (word o i) <> None -> settled_at s' a i) /\ g_keep s' = g_keep s.
Proof.
  induction l as [|i l IH]; intros C s I O Hl; cbn [at_slots].
  - exists s, []. rewrite app_nil_r. split; auto. split; auto. split; [apply wext_refl|]. split; auto. intros i [].
  - destruct (at_saved_ok C s a o i I O) as (s1 & E1 & -> & I1 & X1 & S1 & K1); [apply Hl; left; auto|]. cbn [bind].
    destruct (IH (C ++ E1) s1 I1 (orig_app C E1 a o O)) as (s2 & E2 & -> & I2 & X2 & S2 & K2); [intros j Hj; apply Hl; right; auto|].
    exists s2, (E1 ++ E2). rewrite app_assoc. split; auto. split; auto. split; [eapply wext_trans; eauto|]. split; [|congruence].
    intros j [<-|Hj] Hn; auto. destruct (slot_nonneg C s a o i I O) as (F & N); [apply in_or_app; right; apply Hl; left; auto|].
    eapply settled_wext; eauto.
Qed.

(** *** marking one object *)
Definition done_at (s : gst) (a : Z) (o : obj) : Prop :=
  (forall i, In i (traced c o) -> settled_at s a i) /\
  (forall i, In i (saved_stack o) -> h0 (word o i) <> None -> settled_at s a i) /\
  (o_vt o = PN_TCONT -> In a (g_keep s)).
Lemma done_wext C s s' a o : Inv C s -> orig C a o -> wext s s' -> done_at s a o -> done_at s' a o.
Proof.
  intros I O X (D1 & D2 & D3). split; [|split].
  - intros i Hi. destruct (slot_nonneg C s a o i I O) as (F & N); [apply in_or_app; auto|]. eapply settled_wext; eauto.
  - intros i Hi Hn. destruct (slot_nonneg C s a o i I O) as (F & N); [apply in_or_app; auto|]. eapply settled_wext; eauto.
  - intros V. apply (proj1 (proj2 X)). auto.
Qed.
Lemma inv_keep C s k : Inv C s -> Inv C (mkG (g_heap s) (g_cur s) k).
Proof. intros [A B D F G H J K]. constructor; cbn [g_heap g_cur]; auto. Qed.
Lemma mark_ok C s a o : Inv C s -> orig C a o ->
  exists s' E, mark c s a = Ok (s', a + type_size c o) /\ Inv (C ++ E) s' /\ wext s s' /\ done_at s' a o /\
    g_keep s' = if o_vt o =? PN_TCONT then a :: g_keep s else g_keep s.
Proof.
  intros I O. destruct (orig_now C s a o I O) as (F & W & o2 & Ha & S).
  destruct (osim_shape C o o2 W S) as (Hv & Ht & Hsv & Hz). unfold mark. rewrite Ha, Ht, Hv, Hsv.
  destruct (at_slots_ok a o (traced c o) C s I O) as (s1 & E1 & -> & I1 & X1 & D1 & K1); [auto|]. cbn [bind].
  set (s1' := if o_vt o =? PN_TCONT then _ else s1).
  assert (H1 : g_heap s1' = g_heap s1 /\ Inv (C ++ E1) s1' /\ g_keep s1' = if o_vt o =? PN_TCONT then a :: g_keep s else g_keep s).
  { unfold s1'. destruct (o_vt o =? PN_TCONT); cbn [g_heap g_keep]; [|auto]. split; auto. split; [apply inv_keep; auto|congruence]. }
  destruct H1 as (Hh & I1' & K1').
  destruct (at_saveds_ok a o (saved_stack o) (C ++ E1) s1' I1' (orig_app C E1 a o O)) as (s2 & E2 & -> & I2 & X2 & D2 & K2); [auto|]. cbn [bind].
  assert (O2 : orig ((C ++ E1) ++ E2) a o) by (apply orig_app, orig_app; auto).
  destruct (orig_now _ s2 a o I2 O2) as (_ & _ & o3 & Ha3 & S3). destruct (osim_shape _ o o3 W S3) as (_ & _ & _ & Hz3).
  rewrite Ha3, Hz3. exists s2, (E1 ++ E2). rewrite app_assoc. split; auto. split; auto.
  assert (X1' : wext s s1').
  { split; [intros x ox Fx Hx; rewrite Hh; apply (proj1 X1 x ox Fx Hx)|]. unfold wext_k. rewrite K1'.
    destruct (o_vt o =? PN_TCONT); [|split; [apply incl_refl|auto]]. split; [apply incl_tl, incl_refl|].
    intros v [<-|Hq]; auto. right. split; auto. destruct (orig_now _ s1' a o I1' (orig_app C E1 a o O)) as (_ & _ & ox & Hx & _). congruence. }
  split; [eapply wext_trans; eauto|]. split; [|congruence]. split; [|split].
  - intros i Hi. destruct (slot_nonneg C s a o i I O) as (_ & N); [apply in_or_app; auto|].
    apply (settled_wext s1' s2); auto. unfold settled_at. rewrite Hh. apply (D1 i Hi).
  - auto.
  - intros V. rewrite K2, K1', V. left. reflexivity.
Qed.

(** *** the passes *)
Lemma mark_array_ok : forall l C s, Inv C s -> (forall w, In w l -> good_root w) ->
  exists s' l' E, mark_array c s l = Ok (s', l') /\ Inv (C ++ E) s' /\ wext s s' /\ Forall2 (rsim (C ++ E)) l l' /\ g_keep s' = g_keep s.
Proof.
  induction l as [|w l IH]; intros C s I G; cbn [mark_array].
  - exists s, [], []. rewrite app_nil_r. split; auto. split; auto. split; [apply wext_refl|]. split; auto.
  - destruct (mark_word_ok C s w w I) as (s1 & w3 & E1 & -> & I1 & X1 & R1 & _); [apply G; left; auto|left; auto|]. cbn [bind].
    destruct (IH (C ++ E1) s1 I1) as (s2 & l2 & E2 & -> & I2 & X2 & R2 & K2); [intros; apply G; right; auto|]. cbn [bind].
    exists s2, (w3 :: l2), (E1 ++ E2). rewrite app_assoc. split; auto. split; auto.
    split; [eapply wext_trans; eauto; apply ext_wext; auto|]. split; [|destruct X1 as (_ & X1); congruence].
    constructor; auto. destruct R1 as (A & B & D). split; [apply wsim_app; auto|auto].
Qed.
Lemma old_orig C a o : old_obj a o -> orig C a o.
Proof. intros (F & H). right. split; auto. split; auto. intros X. destruct (g_to RD a X). congruence. Qed.
Lemma mark_store_ok : forall l C s, Inv C s -> (forall v, In v l -> PN_IS_PTR v = true -> exists o, old_obj v o) ->
  exists s' E, mark_store c s l = Ok s' /\ Inv (C ++ E) s' /\ wext s s' /\ (forall v o, In v l -> old_obj v o -> done_at s' v o).
Proof.
  induction l as [|v l IH]; intros C s I G; cbn [mark_store].
  - exists s, []. rewrite app_nil_r. split; auto. split; auto. split; [apply wext_refl|]. intros v o [].
  - destruct (PN_IS_PTR v) eqn:P.
    + destruct (G v) as (o & Ho); [left; auto|auto|].
      destruct (mark_ok C s v o I (old_orig C v o Ho)) as (s1 & E1 & -> & I1 & X1 & D1 & _). cbn [bind].
      destruct (IH (C ++ E1) s1 I1) as (s2 & E2 & -> & I2 & X2 & D2); [intros; apply G; [right|]; auto|].
      exists s2, (E1 ++ E2). rewrite app_assoc. split; auto. split; auto. split; [eapply wext_trans; eauto|].
      intros v' o' [<-|Hv'] Ho'; [|auto]. replace o' with o in * by (destruct Ho, Ho'; congruence).
      apply (done_wext (C ++ E1) s1 s2); auto. apply old_orig; auto.
    + destruct (IH C s I) as (s2 & E2 & -> & I2 & X2 & D2); [intros; apply G; [right|]; auto|].
      exists s2, E2. split; auto. split; auto. split; auto.
      intros v' o' [<-|Hv'] Ho'; auto. destruct Ho' as (_ & Ho'). destruct (g_obj RD v o' Ho'). congruence.
Qed.
(** the Cheney loop *)
Definition all_done (C : list Z) (s : gst) : Prop := forall a b o, placed C a b -> h0 a = Some o -> done_at s b o.
Lemma scan_ok L : (forall a o, c_from c a = true -> h0 a = Some o -> is_fwd o = false -> In a L) ->
  forall fuel C1 C2 s, Inv (C1 ++ C2) s -> (length L - length C1 < fuel)%nat ->
  (forall a b o, placed C1 a b -> h0 a = Some o -> done_at s b o) ->
  exists s' E, scan c fuel s (start + szs C1) g_cur = Ok s' /\ Inv (C1 ++ C2 ++ E) s' /\ wext s s' /\ all_done (C1 ++ C2 ++ E) s'.
Proof.
  intros IL. induction fuel as [|f IH]; intros C1 C2 s I Hf D; [lia|]. cbn [scan].
  rewrite (i_cur _ s I), szs_app. pose proof (inv_okc _ s I) as K. destruct (okc_app _ _ K) as (K1 & K2).
  destruct C2 as [|x C2].
  - cbn [szs]. destruct (start + szs C1 <? start + (szs C1 + 0)) eqn:X; [lia|].
    exists s, []. rewrite !app_nil_r in *. split; auto. split; auto. split; [apply wext_refl|]. exact D.
  - destruct (K2 x) as (o & Ho & Hfw); [left; auto|]. destruct (tsz_ge x o Ho Hfw) as (T1 & _ & T2).
    assert (0 <= szs C2). { apply szs_nonneg. intros y Hy. apply K2. right. auto. }
    cbn [szs]. destruct (start + szs C1 <? start + (szs C1 + (tsz x + szs C2))) eqn:X; [|lia].
    assert (Pl : placed (C1 ++ x :: C2) x (start + szs C1)) by (exists C1, C2; auto).
    assert (O : orig (C1 ++ x :: C2) (start + szs C1) o) by (left; exists x; auto).
    destruct (mark_ok _ s _ o I O) as (s1 & E1 & -> & I1 & X1 & D1 & _). cbn [bind].
    assert (Len : (length (C1 ++ x :: C2) <= length L)%nat).
    { apply NoDup_incl_length; [apply (i_nd _ s I)|]. intros a Ha. destruct (i_c _ s I a Ha) as (Fa & oa & Hoa & Hfa). eapply IL; eauto. }
    rewrite app_length in Len. cbn [length] in Len.
    replace (start + szs C1 + type_size c o) with (start + szs (C1 ++ [x])) by (rewrite szs_app; cbn [szs]; lia).
    assert (I1' : Inv ((C1 ++ [x]) ++ C2 ++ E1) s1).
    { replace ((C1 ++ [x]) ++ C2 ++ E1) with ((C1 ++ x :: C2) ++ E1); auto. rewrite <- !app_assoc. reflexivity. }
    destruct (IH (C1 ++ [x]) (C2 ++ E1) s1) as (s2 & E2 & -> & I2 & X2 & D2).
    + exact I1'.
    + rewrite app_length. cbn [length]. lia.
    + intros a b oa Pa Hoa. assert (Pa' : placed ((C1 ++ [x]) ++ C2 ++ E1) a b) by (apply placed_app; auto).
      destruct (Z.eq_dec a x) as [->|N].
      * assert (Eb : b = start + szs C1). { eapply placed_fun; [apply (i_nd _ s1 I1')|exact Pa'|]. apply placed_app. exists C1, []. auto. }
        rewrite Eb. replace oa with o by congruence. auto.
      * assert (In a C1) as Ia. { apply placed_In in Pa. apply in_app_or in Pa. destruct Pa as [?|[?|[]]]; auto. congruence. }
        destruct (In_placed C1 a Ia) as (b' & Pb').
        assert (Eb : b = b') by (eapply placed_fun; [apply (i_nd _ s1 I1')|exact Pa'|]; rewrite <- app_assoc; apply placed_app; auto). rewrite Eb.
        eapply done_wext; [exact I| |exact X1|]; [left; exists a; split; [apply placed_app|]; eauto|]. eapply D; eauto.
    + exists s2, (E1 ++ E2).
      replace (C1 ++ (x :: C2) ++ E1 ++ E2) with ((C1 ++ [x]) ++ (C2 ++ E1) ++ E2) by (rewrite <- !app_assoc; reflexivity).
      split; auto. split; auto. split; [eapply wext_trans; eauto|auto].
Qed.
(** the walk over protected memory *)
Lemma walk_ok p hi l : walk p hi l -> forall fuel C s, (length l < fuel)%nat -> Inv C s ->
  exists s' E, scan c fuel s p (fun _ => hi) = Ok s' /\ Inv (C ++ E) s' /\ wext s s' /\ (forall v o, In v l -> old_obj v o -> done_at s' v o).
Proof.
  induction 1 as [p hi Hp|p hi o l Hp Ho Hw IH]; intros [|f] C s Hf I; cbn [length] in Hf; try lia; cbn [scan].
  - destruct (p <? hi) eqn:X; [lia|]. exists s, []. rewrite app_nil_r. split; auto. split; auto. split; [apply wext_refl|]. intros v o [].
  - destruct (p <? hi) eqn:X; [|lia].
    destruct (mark_ok C s p o I (old_orig C p o Ho)) as (s1 & E1 & -> & I1 & X1 & D1 & _). cbn [bind].
    destruct (IH f (C ++ E1) s1) as (s2 & E2 & -> & I2 & X2 & D2); [lia|auto|].
    exists s2, (E1 ++ E2). rewrite app_assoc. split; auto. split; auto. split; [eapply wext_trans; eauto|].
    intros v' o' [<-|Hv'] Ho'; [|auto]. replace o' with o in * by (destruct Ho, Ho'; congruence).
    apply (done_wext (C ++ E1) s1 s2); auto. apply old_orig; auto.
Qed.
(** the weak table *)
Definition weak_res (C : list Z) (k k' : option Z) : Prop :=
  match k with
  | None => k' = None
  | Some v => if c_from c v then (exists b, placed C v b /\ k' = Some b) \/ (~ In v C /\ k' = None) else k' = Some v
  end.
Lemma weak_slots_ok C s : Inv C s -> forall l, (forall v, In (Some v) l -> c_from c v = true -> h0 v <> None) ->
  exists l', weak_slots c s l = Ok l' /\ Forall2 (weak_res C) l l'.
Proof.
  intros I. induction l as [|k l IH]; intros H; cbn [weak_slots]; [exists []; auto|].
  assert (X : exists k', weak_slot c s k = Ok k' /\ weak_res C k k').
  { destruct k as [v|]; [|exists None; split; reflexivity]. unfold weak_slot, weak_res. destruct (c_from c v) eqn:F; [|eauto].
    destruct (in_dec Z.eq_dec v C) as [Iv|Nv].
    - destruct (In_placed C v Iv) as (b & Pb). destruct (i_hdr C s I v b Pb) as (o1 & -> & -> & <-). eexists. split; [reflexivity|eauto].
    - rewrite (i_un C s I v F Nv). destruct (h0 v) as [o|] eqn:Ho.
      + destruct (g_obj RD v o Ho) as (_ & _ & W). rewrite (w_notcopied c o W). eauto.
      + exfalso. apply (H v); auto. left. auto. }
  destruct X as (k' & -> & Wk). cbn [bind]. destruct IH as (l' & -> & Wl); [intros; eapply H; eauto; right; auto|]. cbn [bind].
  exists (k' :: l'). auto.
Qed.

(** *** the beginning and the end *)
Lemma inv_start keep : Inv [] (mkG h0 start keep).
Proof.
  assert (NP : forall a b, ~ placed [] a b). { intros a b (C1 & C2 & X & _). destruct C1; discriminate. }
  constructor; cbn [g_heap g_cur szs].
  - constructor.
  - intros a [].
  - lia.
  - auto.
  - intros a b P. destruct (NP a b P).
  - intros a b P. destruct (NP a b P).
  - intros a F N. destruct (h0 a) as [o|]; auto. exists o. split; auto. split; auto. apply osim_refl.
  - intros b o Hb Ho. destruct (g_to RD b Hb). congruence.
Qed.
(** an old object that is not visited has no reference into the evacuated space *)
Lemma done_start keep a o : old_obj a o -> o_vt o <> PN_TCONT ->
  (forall i, In i (slots c o) -> h0 (word o i) <> None -> c_from c (word o i) = false) ->
  done_at (mkG h0 start keep) a o.
Proof.
  intros (F & Ho) NC H.
  assert (X : forall i, In i (slots c o) -> (PN_IS_PTR (word o i) = true -> h0 (word o i) <> None) -> settled_at (mkG h0 start keep) a i).
  { intros i Hi Hp. exists o. split; auto. intros P. apply H; auto. }
  split; [|split; [|congruence]].
  - intros i Hi. apply X; [apply in_or_app; auto|]. intros P. destruct (g_val RD a o i Ho Hi) as (n & r & _ & Ch).
    inversion Ch; subst; congruence.
  - intros i Hi Hn. apply X; [apply in_or_app; auto|]. auto.
Qed.

(** the end of the collection: following stubs in the new heap *)
Definition final (C : list Z) (s : gst) : Prop :=
  Inv C s /\ all_done C s /\ forall a o, old_obj a o -> done_at s a o.
Definition moved_to (C : list Z) (r r2 : Z) : Prop := if PN_IS_PTR r && c_from c r then placed C r r2 else r2 = r.
Lemma released C s a o : Inv C s -> orig C a o -> exists o2, release c (g_heap s) a = Some o2 /\ osim C o o2 /\ g_heap s a = Some o2.
Proof.
  intros I O. destruct (orig_now C s a o I O) as (F & _ & o2 & Ho2 & S). exists o2. unfold release. rewrite F. auto.
Qed.
Lemma released_nofwd C s a o : Inv C s -> orig C a o -> is_fwd o = false ->
  exists o2, release c (g_heap s) a = Some o2 /\ is_fwd o2 = false.
Proof.
  intros I O Hf. destruct (orig_now C s a o I O) as (_ & W & _). destruct (released C s a o I O) as (o2 & H & S & _).
  exists o2. split; auto. destruct (osim_fwd C o o2 W S). congruence.
Qed.
Lemma chain_nonstub n w r : chain h0 n w r -> PN_IS_PTR r = true -> exists o, h0 r = Some o /\ is_fwd o = false.
Proof. apply chain_end. Qed.
Lemma final_chain C s : final C s -> forall n w r, chain h0 n w r -> forall w2, wsim C w w2 -> settled w2 ->
  exists m r2, (m <= n)%nat /\ chain (release c (g_heap s)) m w2 r2 /\ moved_to C r r2.
Proof.
  intros (I & AD & OD) n w r Ch.
  assert (Pl : forall n w w2 r, chain h0 n w r -> c_from c r = true -> placed C r w2 ->
    exists m r2, (m <= n)%nat /\ chain (release c (g_heap s)) m w2 r2 /\ moved_to C r r2).
  { clear n w r Ch. intros n w w2 r Ch F P. exists 0%nat, w2. split; [lia|].
    destruct (i_c C s I r (placed_In C r w2 P)) as (_ & o & Ho & Hf).
    destruct (released_nofwd C s w2 o I) as (o2 & A & B); [left; exists r; auto|auto|].
    split; [eapply ch_obj; eauto; apply (placed_ptr C s r w2 I P)|].
    unfold moved_to. destruct (g_obj RD r o Ho) as (-> & _). rewrite F. exact P. }
  induction Ch as [v P|v o P Hh Hf|n v o r P Hh Hf Hc IH]; intros w2 Hw St.
  - rewrite (wsim_imm C s v w2 I Hw P). exists 0%nat, v. split; [lia|]. split; [apply ch_imm; auto|].
    unfold moved_to. rewrite P. reflexivity.
  - destruct (wsim_chain C 0 v v w2 (ch_obj h0 v o P Hh Hf) Hw) as [->|(F & Pp)]; [|eapply Pl; [eapply ch_obj; eauto|auto|auto]].
    specialize (St P). destruct (released_nofwd C s v o I) as (o2 & A & B); [apply old_orig; split; auto|auto|].
    exists 0%nat, v. split; [lia|]. split; [eapply ch_obj; eauto|]. unfold moved_to. rewrite P, St. reflexivity.
  - destruct (wsim_chain C (S n) v r w2 (ch_stub h0 n v o r P Hh Hf Hc) Hw) as [->|(F & Pp)]; [|eapply Pl; [eapply ch_stub; eauto|auto|auto]].
    specialize (St P). assert (O : old_obj v o) by (split; auto).
    destruct (released C s v o I (old_orig C v o O)) as (o2 & A & B & A2).
    destruct (g_obj RD v o Hh) as (_ & _ & W). destruct (osim_fwd C o o2 W B) as (Ff & _).
    destruct (OD v o O) as (D1 & _). destruct (D1 1 (fwd_traced o Hf)) as (o2' & A2' & S1). replace o2' with o2 in * by congruence.
    destruct (IH (word o2 1)) as (m & r2 & Hm & Ch2 & Mv); [|exact S1|].
    + destruct B as (L & B). destruct (B 1) as [X|(_ & n' & r' & X)]; [pose proof (w_len c o W); lia|left; auto|].
      right. exists n', r'. exact X.
    + exists (S m), r2. split; [lia|]. split; [|exact Mv]. eapply ch_stub; eauto; congruence.
Qed.

End Inv.
