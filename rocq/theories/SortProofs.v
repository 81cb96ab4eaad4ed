(** Proofs about sorting. *)
From Coq Require Import ZifyBool Permutation.
From Verif Require Import Base WordModel WordProofs Arr TupleModel TupleProofs PropTuple2 SortModel.
Ltac Zify.zify_post_hook ::= Z.div_mod_to_equations.

(** [m'] rearranges the positions a..b (inclusive) of [m] and nothing else *)
Definition rearr (a b : Z) (m m' : list Z) : Prop :=
  Permutation m' m /\ zlen m' = zlen m /\ forall k, 0 <= k -> (k < a \/ b < k) -> znth m' k = znth m k.
Lemma rearr_refl a b m : rearr a b m m.
Proof. repeat split; reflexivity. Qed.
Lemma rearr_trans a b m1 m2 m3 : rearr a b m1 m2 -> rearr a b m2 m3 -> rearr a b m1 m3.
Proof.
  intros [P1 [L1 F1]] [P2 [L2 F2]]. split; [etransitivity; eassumption|]. split; [lia|].
  intros k H1 H2. rewrite F2, F1 by assumption. reflexivity.
Qed.
Lemma rearr_widen a b a' b' m m' : a' <= a -> b <= b' -> rearr a b m m' -> rearr a' b' m m'.
Proof. intros Ha Hb [P [L F]]. repeat split; try assumption. intros k H1 H2. apply F; lia. Qed.
Lemma rearr_swapped a b m i j : 0 <= a -> b < zlen m -> a <= i <= b -> a <= j <= b -> rearr a b m (swapped m i j).
Proof.
  intros. split; [apply swapped_perm; lia|]. split; [apply zlen_swapped; lia|].
  intros k Hk Ho. rewrite znth_swapped by lia.
  destruct (k =? j) eqn:E1; [lia|]. destruct (k =? i) eqn:E2; [lia|reflexivity].
Qed.
(** a property of all elements of the range survives the rearrangement *)
Lemma rearr_forall a b m m' (Q : Z -> Prop) : 0 <= a -> b < zlen m -> rearr a b m m' ->
  (forall k, a <= k <= b -> Q (znth m k)) -> forall k, a <= k <= b -> Q (znth m' k).
Proof.
  intros Ha Hb [P [L F]] HQ k Hk.
  assert (Dec : forall mm, zlen mm = zlen m -> mm = ztake a mm ++ zsub mm a (b - a + 1) ++ zdrop (b + 1) mm).
  { intros mm Lm. rewrite <- (ztake_zdrop a mm) at 1. f_equal.
    rewrite <- (ztake_zdrop (b - a + 1) (zdrop a mm)) at 1. unfold zsub, ztake, zdrop. f_equal.
    rewrite skipn_plus. f_equal. lia. }
  assert (PS : Permutation (zsub m' a (b - a + 1)) (zsub m a (b - a + 1))).
  { rewrite (Dec m' L), (Dec m eq_refl) in P.
    assert (T : ztake a m' = ztake a m).
    { apply znth_ext; [rewrite !zlen_ztake; lia|]. intros i Hi. rewrite zlen_ztake in Hi by lia.
      rewrite !znth_ztake by lia. apply F; lia. }
    assert (D : zdrop (b + 1) m' = zdrop (b + 1) m).
    { apply znth_ext; [rewrite !zlen_zdrop; lia|]. intros i Hi. rewrite zlen_zdrop in Hi by lia.
      rewrite !znth_zdrop by lia. apply F; lia. }
    rewrite T, D in P. apply Permutation_app_inv_l in P. apply Permutation_app_inv_r in P. exact P. }
  assert (I : In (znth m' k) (zsub m' a (b - a + 1))).
  { replace (znth m' k) with (znth (zsub m' a (b - a + 1)) (k - a)).
    - apply znth_In. rewrite zlen_zsub; lia.
    - rewrite znth_zsub by lia. f_equal; lia. }
  apply (Permutation_in _ PS) in I. apply In_znth in I. destruct I as [i [Hi <-]].
  rewrite zlen_zsub in Hi by lia. rewrite znth_zsub by lia. apply HQ. lia.
Qed.

Section Sort.
Context {S : Type} (uniq : Z -> Z).

Lemma partition_ok c pivot : forall n i s m index, 0 <= index <= i -> i + Z.of_nat n <= zlen m ->
  exists s' m' index', partition_loop (S := S) uniq c pivot i n s m index = Ok (s', m', index') /\
    index <= index' <= index + Z.of_nat n /\ rearr index (i + Z.of_nat n - 1) m m'.
Proof.
  induction n as [|n IH]; intros i s m index Hi Hn; cbn [partition_loop].
  - exists s, m, index. repeat split; try reflexivity; lia.
  - rewrite rd_ok by lia. cbn [bind]. destruct (to_front uniq c (znth m i) pivot s) as [s1 g]. destruct g.
    + rewrite SWAP_ok by lia. cbn [bind].
      destruct (IH (i + 1) s1 (swapped m i index) (index + 1)) as [s' [m' [ix [E [Hx R]]]]]; [lia|rewrite zlen_swapped; lia|].
      exists s', m', ix. split; [exact E|]. split; [lia|].
      eapply rearr_trans; [apply rearr_swapped with (i := i) (j := index); lia|].
      eapply rearr_widen; [| |exact R]; lia.
    + destruct (IH (i + 1) s1 m index) as [s' [m' [ix [E [Hx R]]]]]; [lia|lia|].
      exists s', m', ix. split; [exact E|]. split; [lia|]. eapply rearr_widen; [| |exact R]; lia.
Qed.

Lemma sort_internal_ok c : forall fuel s m from to, 0 <= from -> from <= to + 1 -> -1 <= to < zlen m ->
  (Z.to_nat (to - from + 1) < fuel)%nat ->
  exists s' m', sort_internal (S := S) uniq c fuel s m from to = Ok (s', m') /\ rearr from to m m'.
Proof.
  induction fuel as [|fuel IH]; intros s m from to Hf Hft Ht Hfu; [lia|]. cbn [sort_internal].
  destruct (from <? to) eqn:E0; [|exists s, m; split; [reflexivity|apply rearr_refl]].
  set (ix := from + (to - from) / 2). assert (Hix : from <= ix < to) by (unfold ix; lia). clearbody ix.
  rewrite rd_ok by lia. cbn [bind]. rewrite SWAP_ok by lia. cbn [bind].
  pose proof (rearr_swapped from to m ix to) as R1.
  assert (L1 : zlen (swapped m ix to) = zlen m) by (apply zlen_swapped; lia).
  set (bound := match c with CmpNil => to - 1 | _ => to end).
  assert (Hbo : to - 1 <= bound <= to) by (unfold bound; destruct c; lia). clearbody bound.
  destruct (partition_ok c (znth m ix) (Z.to_nat (bound - from)) from s (swapped m ix to) from)
    as [s1 [m1 [i1 [E1 [H1 R2]]]]]; [lia|lia|].
  rewrite E1. cbn [bind]. assert (L2 : zlen m1 = zlen m) by (destruct R2 as [_ [? _]]; lia).
  rewrite SWAP_ok by lia. cbn [bind].
  pose proof (rearr_swapped from to m1 i1 to) as R3.
  assert (L3 : zlen (swapped m1 i1 to) = zlen m) by (rewrite zlen_swapped; lia).
  assert (R13 : rearr from to m (swapped m1 i1 to)).
  { eapply rearr_trans; [apply R1; lia|]. eapply rearr_trans; [|apply R3; lia]. eapply rearr_widen; [| |exact R2]; lia. }
  set (m2 := swapped m1 i1 to) in *. clearbody m2.
  assert (X : exists s3 m3, (if i1 >? 0 then sort_internal uniq c fuel s1 m2 from (i1 - 1) else Ok (s1, m2)) = Ok (s3, m3)
     /\ rearr from (i1 - 1) m2 m3).
  { destruct (i1 >? 0) eqn:E2.
    - apply IH; lia.
    - exists s1, m2. split; [reflexivity|apply rearr_refl]. }
  destruct X as [s3 [m3 [E3 R4]]]. rewrite E3. cbn [bind].
  assert (L4 : zlen m3 = zlen m) by (destruct R4 as [_ [? _]]; lia).
  destruct (IH s3 m3 (i1 + 1) to) as [s4 [m4 [E4 R5]]]; try lia.
  exists s4, m4. split; [exact E4|].
  eapply rearr_trans; [exact R13|]. eapply rearr_trans; [eapply rearr_widen; [| |exact R4]; lia|].
  eapply rearr_widen; [| |exact R5]; lia.
Qed.

Lemma sort_internal_fuel c : forall fuel s m from to fuel' r, (fuel <= fuel')%nat ->
  sort_internal (S := S) uniq c fuel s m from to = Ok r -> sort_internal uniq c fuel' s m from to = Ok r.
Proof.
  induction fuel as [|fuel IH]; intros s m from to fuel' r Hf H; [discriminate|].
  destruct fuel' as [|fuel']; [lia|]. cbn [sort_internal] in *.
  destruct (from <? to); [|exact H].
  destruct (rd m (from + (to - from) / 2)) as [p| |]; cbn [bind] in *; try discriminate.
  destruct (SWAP m (from + (to - from) / 2) to) as [m1| |]; cbn [bind] in *; try discriminate.
  destruct (partition_loop uniq c p from (Z.to_nat (match c with CmpNil => to - 1 | _ => to end - from)) s m1 from)
    as [[[s1 m2] ix]| |]; cbn [bind] in *; try discriminate.
  destruct (SWAP m2 ix to) as [m3| |]; cbn [bind] in *; try discriminate.
  destruct (ix >? 0).
  - destruct (sort_internal uniq c fuel s1 m3 from (ix - 1)) as [[s4 m4]| |] eqn:E; cbn [bind] in *; try discriminate.
    rewrite (IH _ _ _ _ fuel' _ ltac:(lia) E). cbn [bind]. apply IH; [lia|exact H].
  - cbn [bind] in *. apply IH; [lia|exact H].
Qed.

Lemma ins_inner_ok c : forall j s m, Z.of_nat j < zlen m ->
  exists s' m', ins_inner (S := S) uniq c j s m = Ok (s', m') /\ rearr 0 (Z.of_nat j) m m'.
Proof.
  induction j as [|j IH]; intros s m H; cbn [ins_inner].
  - exists s, m. split; [reflexivity|apply rearr_refl].
  - rewrite !rd_ok by lia. cbn [bind].
    destruct (out_of_order uniq c (znth m (Z.of_nat j)) (znth m (Z.of_nat (Datatypes.S j))) s) as [s1 g].
    destruct g.
    + rewrite SWAP_ok by lia. cbn [bind].
      destruct (IH s1 (swapped m (Z.of_nat (Datatypes.S j)) (Z.of_nat j))) as [s' [m' [E R]]]; [rewrite zlen_swapped; lia|].
      exists s', m'. split; [exact E|]. eapply rearr_trans; [apply rearr_swapped with (i := Z.of_nat (Datatypes.S j)) (j := Z.of_nat j); lia|].
      eapply rearr_widen; [| |exact R]; lia.
    + exists s1, m. split; [reflexivity|apply rearr_refl].
Qed.
Lemma ins_outer_ok c : forall n i s m, Z.of_nat i + Z.of_nat n <= zlen m ->
  exists s' m', ins_outer (S := S) uniq c i n s m = Ok (s', m') /\ rearr 0 (Z.of_nat i + Z.of_nat n - 1) m m'.
Proof.
  induction n as [|n IH]; intros i s m H; cbn [ins_outer].
  - exists s, m. split; [reflexivity|apply rearr_refl].
  - destruct (ins_inner_ok c i s m) as [s1 [m1 [E1 R1]]]; [lia|]. rewrite E1. cbn [bind].
    assert (L1 : zlen m1 = zlen m) by (destruct R1 as [_ [? _]]; assumption).
    destruct (IH (Datatypes.S i) s1 m1) as [s2 [m2 [E2 R2]]]; [lia|].
    exists s2, m2. split; [exact E2|]. eapply rearr_trans; (eapply rearr_widen; [| |eassumption]; lia).
Qed.
End Sort.

(** ** sortedness, for a comparison without side effects *)
Section Sorted.
Variable uniq : Z -> Z.
Variable R : Z -> Z -> Prop.
Hypothesis R_trans : forall x y z, R x y -> R y z -> R x z.

(** positions a..b are ordered *)
Definition ord (a b : Z) (m : list Z) : Prop := forall i j, a <= i < j -> j <= b -> R (znth m i) (znth m j).

Section Quick.
Variable c : cmpmode unit.
Hypothesis c_full : c <> CmpNil.
Hypothesis front_R : forall x p, snd (to_front uniq c x p tt) = true -> R x p.
Hypothesis back_R : forall x p, snd (to_front uniq c x p tt) = false -> R p x.

Lemma partition_sorted pivot from : forall n i s m index, 0 <= from <= index -> index <= i ->
  i + Z.of_nat n <= zlen m ->
  (forall k, from <= k < index -> R (znth m k) pivot) ->
  (forall k, index <= k < i -> R pivot (znth m k)) ->
  exists s' m' index', partition_loop uniq c pivot i n s m index = Ok (s', m', index') /\
    index <= index' <= i + Z.of_nat n /\ rearr from (i + Z.of_nat n - 1) m m' /\
    (forall k, from <= k < index' -> R (znth m' k) pivot) /\
    (forall k, index' <= k < i + Z.of_nat n -> R pivot (znth m' k)).
Proof.
  induction n as [|n IH]; intros i s m index Hi Hii Hn HF HB; cbn [partition_loop].
  - exists s, m, index. split; [reflexivity|]. split; [lia|]. split; [apply rearr_refl|].
    split; [exact HF|]. intros k Hk. apply HB. lia.
  - rewrite rd_ok by lia. cbn [bind]. destruct s.
    pose proof (front_R (znth m i) pivot) as FR. pose proof (back_R (znth m i) pivot) as BR.
    destruct (to_front uniq c (znth m i) pivot tt) as [s1 g]. cbn [snd] in FR, BR. destruct g.
    + rewrite SWAP_ok by lia. cbn [bind].
      assert (L : zlen (swapped m i index) = zlen m) by (apply zlen_swapped; lia).
      destruct (IH (i + 1) s1 (swapped m i index) (index + 1)) as [s' [m' [ix [E [Hx [Rr [F' B']]]]]]]; try lia.
      * intros k Hk. rewrite znth_swapped by lia.
        destruct (Z.eqb_spec k index); [apply FR; reflexivity|].
        destruct (Z.eqb_spec k i); [lia|]. apply HF. lia.
      * intros k Hk. rewrite znth_swapped by lia.
        destruct (Z.eqb_spec k index); [lia|].
        destruct (Z.eqb_spec k i); apply HB; lia.
      * exists s', m', ix. split; [exact E|]. split; [lia|]. split.
        { eapply rearr_trans; [apply rearr_swapped with (i := i) (j := index); lia|].
          eapply rearr_widen; [| |exact Rr]; lia. }
        split; [exact F'|]. intros k Hk. apply B'. lia.
    + destruct (IH (i + 1) s1 m index) as [s' [m' [ix [E [Hx [Rr [F' B']]]]]]]; try lia.
      * exact HF.
      * intros k Hk. destruct (Z.eq_dec k i) as [->|]; [apply BR; reflexivity|apply HB; lia].
      * exists s', m', ix. split; [exact E|]. split; [lia|]. split; [eapply rearr_widen; [| |exact Rr]; lia|].
        split; [exact F'|]. intros k Hk. apply B'. lia.
Qed.

Lemma sort_internal_sorted : forall fuel s m from to, 0 <= from -> from <= to + 1 -> -1 <= to < zlen m ->
  (Z.to_nat (to - from + 1) < fuel)%nat ->
  exists s' m', sort_internal uniq c fuel s m from to = Ok (s', m') /\ rearr from to m m' /\ ord from to m'.
Proof.
  induction fuel as [|fuel IH]; intros s m from to Hf Hft Ht Hfu; [lia|]. cbn [sort_internal].
  destruct (from <? to) eqn:E0.
  2:{ exists s, m. split; [reflexivity|]. split; [apply rearr_refl|]. intros i j Hi Hj. lia. }
  set (ix := from + (to - from) / 2). assert (Hix : from <= ix < to) by (unfold ix; lia). clearbody ix.
  rewrite rd_ok by lia. cbn [bind]. rewrite SWAP_ok by lia. cbn [bind].
  pose proof (rearr_swapped from to m ix to) as R1.
  assert (L1 : zlen (swapped m ix to) = zlen m) by (apply zlen_swapped; lia).
  replace (match c with CmpNil => to - 1 | _ => to end) with to by (destruct c; try reflexivity; exfalso; apply c_full; reflexivity).
  set (pivot := znth m ix).
  assert (P1 : znth (swapped m ix to) to = pivot).
  { rewrite znth_swapped by lia. rewrite Z.eqb_refl. reflexivity. }
  destruct (partition_sorted pivot from (Z.to_nat (to - from)) from s (swapped m ix to) from)
    as [s1 [m1 [i1 [E1 [H1 [R2 [F1 B1]]]]]]]; try lia.
  rewrite E1. cbn [bind]. replace (from + Z.of_nat (Z.to_nat (to - from))) with to in * by lia.
  assert (L2 : zlen m1 = zlen m) by (destruct R2 as [_ [? _]]; lia).
  assert (P2 : znth m1 to = pivot) by (rewrite <- P1; destruct R2 as [_ [_ F]]; apply F; lia).
  rewrite SWAP_ok by lia. cbn [bind].
  pose proof (rearr_swapped from to m1 i1 to) as R3.
  assert (L3 : zlen (swapped m1 i1 to) = zlen m) by (rewrite zlen_swapped; lia).
  assert (R13 : rearr from to m (swapped m1 i1 to)).
  { eapply rearr_trans; [apply R1; lia|]. eapply rearr_trans; [|apply R3; lia]. eapply rearr_widen; [| |exact R2]; lia. }
  set (m2 := swapped m1 i1 to) in *.
  assert (F2 : forall k, from <= k <= i1 - 1 -> R (znth m2 k) pivot).
  { intros k Hk. unfold m2. rewrite znth_swapped by lia.
    destruct (Z.eqb_spec k to); [lia|]. destruct (Z.eqb_spec k i1); [lia|]. apply F1. lia. }
  assert (B2 : forall k, i1 + 1 <= k <= to -> R pivot (znth m2 k)).
  { intros k Hk. unfold m2. rewrite znth_swapped by lia.
    destruct (Z.eqb_spec k to); [apply B1; lia|]. destruct (Z.eqb_spec k i1); [lia|]. apply B1. lia. }
  assert (Q2 : znth m2 i1 = pivot).
  { unfold m2. rewrite znth_swapped by lia. destruct (Z.eqb_spec i1 to) as [->|]; [exact P2|]. rewrite Z.eqb_refl. exact P2. }
  clearbody m2. clear F1 B1 R2 R3 P2.
  assert (X : exists s3 m3, (if i1 >? 0 then sort_internal uniq c fuel s1 m2 from (i1 - 1) else Ok (s1, m2)) = Ok (s3, m3)
     /\ rearr from (i1 - 1) m2 m3 /\ ord from (i1 - 1) m3).
  { destruct (i1 >? 0) eqn:E2.
    - apply IH; lia.
    - exists s1, m2. split; [reflexivity|]. split; [apply rearr_refl|]. intros i j Hi Hj. lia. }
  destruct X as [s3 [m3 [E3 [R4 O3]]]]. rewrite E3. cbn [bind].
  assert (L4 : zlen m3 = zlen m) by (destruct R4 as [_ [? _]]; lia).
  destruct (IH s3 m3 (i1 + 1) to) as [s4 [m4 [E4 [R5 O4]]]]; try lia.
  exists s4, m4. split; [exact E4|]. split.
  { eapply rearr_trans; [exact R13|]. eapply rearr_trans; [eapply rearr_widen; [| |exact R4]; lia|].
    eapply rearr_widen; [| |exact R5]; lia. }
  assert (F3 : forall k, from <= k <= i1 - 1 -> R (znth m3 k) pivot).
  { apply (rearr_forall from (i1 - 1) m2 m3 (fun x => R x pivot)); try lia; assumption. }
  assert (B3 : forall k, i1 + 1 <= k <= to -> R pivot (znth m4 k)).
  { apply (rearr_forall (i1 + 1) to m3 m4 (fun x => R pivot x)); try lia; try assumption.
    intros k Hk. destruct R4 as [_ [_ F]]. rewrite F by lia. apply B2. lia. }
  destruct R4 as [_ [_ K4]]. destruct R5 as [_ [_ K5]].
  assert (Q4 : znth m4 i1 = pivot) by (rewrite K5 by lia; rewrite K4 by lia; exact Q2).
  assert (F4 : forall k, from <= k <= i1 - 1 -> R (znth m4 k) pivot) by (intros k Hk; rewrite K5 by lia; apply F3; lia).
  intros i j Hi Hj.
  destruct (Z_lt_le_dec j i1) as [A|A].
  - rewrite !K5 by lia. apply O3; lia.
  - destruct (Z.eq_dec j i1) as [->|Nj]; [rewrite Q4; apply F4; lia|].
    destruct (Z_lt_le_dec i i1) as [B|B].
    + apply (R_trans _ pivot); [apply F4; lia|apply B3; lia].
    + destruct (Z.eq_dec i i1) as [->|Ni]; [rewrite Q4; apply B3; lia|]. apply O4; lia.
Qed.
End Quick.

Section Ins.
Variable c : cmpmode unit.
Hypothesis keep_R : forall a b, snd (out_of_order uniq c a b tt) = false -> R a b.
Hypothesis swap_R : forall a b, snd (out_of_order uniq c a b tt) = true -> R b a.

(** positions 0..i are ordered except that the element at [j] may be too far right *)
Lemma ins_inner_sorted i : forall j s m, Z.of_nat j <= i -> i < zlen m ->
  (forall p q, 0 <= p < q -> q <= i -> p <> Z.of_nat j -> q <> Z.of_nat j -> R (znth m p) (znth m q)) ->
  (forall q, Z.of_nat j < q <= i -> R (znth m (Z.of_nat j)) (znth m q)) ->
  exists s' m', ins_inner uniq c j s m = Ok (s', m') /\ rearr 0 (Z.of_nat j) m m' /\ ord 0 i m'.
Proof.
  induction j as [|j IH]; intros s m Hj Hi HO HR; cbn [ins_inner].
  - exists s, m. split; [reflexivity|]. split; [apply rearr_refl|]. intros p q Hp Hq.
    destruct (Z.eq_dec p 0) as [->|N]; [apply HR; lia|]. apply HO; lia.
  - rewrite !rd_ok by lia. cbn [bind]. destruct s.
    pose proof (keep_R (znth m (Z.of_nat j)) (znth m (Z.of_nat (S j)))) as KR.
    pose proof (swap_R (znth m (Z.of_nat j)) (znth m (Z.of_nat (S j)))) as SR.
    destruct (out_of_order uniq c (znth m (Z.of_nat j)) (znth m (Z.of_nat (S j))) tt) as [s1 g]. cbn [snd] in KR, SR.
    destruct g.
    + rewrite SWAP_ok by lia. cbn [bind].
      set (m1 := swapped m (Z.of_nat (S j)) (Z.of_nat j)).
      assert (L : zlen m1 = zlen m) by (apply zlen_swapped; lia).
      assert (N : forall k, 0 <= k -> znth m1 k = if k =? Z.of_nat j then znth m (Z.of_nat (S j))
                  else if k =? Z.of_nat (S j) then znth m (Z.of_nat j) else znth m k)
        by (intros k Hk; unfold m1; apply znth_swapped; lia).
      destruct (IH s1 m1) as [s' [m' [E [Rr O]]]]; try lia.
      * intros p q Hp Hq Np Nq. rewrite !N by lia.
        destruct (Z.eqb_spec p (Z.of_nat j)); [lia|]. destruct (Z.eqb_spec q (Z.of_nat j)); [lia|].
        destruct (Z.eqb_spec p (Z.of_nat (S j))); destruct (Z.eqb_spec q (Z.of_nat (S j))); try lia; apply HO; lia.
      * intros q Hq. rewrite !N by lia. rewrite Z.eqb_refl.
        destruct (Z.eqb_spec q (Z.of_nat j)); [lia|].
        destruct (Z.eqb_spec q (Z.of_nat (S j))); [apply SR; reflexivity|]. apply HR. lia.
      * exists s', m'. split; [exact E|]. split; [|exact O].
        eapply rearr_trans; [apply rearr_swapped with (i := Z.of_nat (S j)) (j := Z.of_nat j); lia|].
        fold m1. eapply rearr_widen; [| |exact Rr]; lia.
    + exists s1, m. split; [reflexivity|]. split; [apply rearr_refl|].
      specialize (KR eq_refl). intros p q Hp Hq.
      destruct (Z.eq_dec p (Z.of_nat (S j))) as [->|Np]; [apply HR; lia|].
      destruct (Z.eq_dec q (Z.of_nat (S j))) as [->|Nq]; [|apply HO; lia].
      destruct (Z.eq_dec p (Z.of_nat j)) as [->|Np2]; [exact KR|].
      apply (R_trans _ (znth m (Z.of_nat j))); [apply HO; lia|exact KR].
Qed.
Lemma ins_outer_sorted : forall n i s m, (1 <= i)%nat -> Z.of_nat i + Z.of_nat n <= zlen m ->
  ord 0 (Z.of_nat i - 1) m ->
  exists s' m', ins_outer uniq c i n s m = Ok (s', m') /\ rearr 0 (Z.of_nat i + Z.of_nat n - 1) m m' /\
    ord 0 (Z.of_nat i + Z.of_nat n - 1) m'.
Proof.
  induction n as [|n IH]; intros i s m H1 H HO; cbn [ins_outer].
  - exists s, m. split; [reflexivity|]. split; [apply rearr_refl|]. replace (Z.of_nat i + Z.of_nat 0 - 1) with (Z.of_nat i - 1) by lia. exact HO.
  - destruct (ins_inner_sorted (Z.of_nat i) i s m) as [s1 [m1 [E1 [R1 O1]]]]; try lia.
    { intros p q Hp Hq Np Nq. apply HO; lia. }
    rewrite E1. cbn [bind].
    assert (L1 : zlen m1 = zlen m) by (destruct R1 as [_ [? _]]; assumption).
    destruct (IH (S i) s1 m1) as [s2 [m2 [E2 [R2 O2]]]]; try lia.
    { replace (Z.of_nat (S i) - 1) with (Z.of_nat i) by lia. exact O1. }
    exists s2, m2. split; [exact E2|]. split.
    + eapply rearr_trans; (eapply rearr_widen; [| |eassumption]; lia).
    + replace (Z.of_nat i + Z.of_nat (S n) - 1) with (Z.of_nat (S i) + Z.of_nat n - 1) by lia. exact O2.
Qed.
End Ins.
End Sorted.
