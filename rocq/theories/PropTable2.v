(** Properties C23 (table filter) and C25 (tuple to table conversion). *)
From Coq Require Import ZifyBool Permutation.
From Verif Require Import Base Arr GArr WordModel WordProofs TupleModel TupleProofs KhashModel KhashProofs TableModel TableProofs PropTable.
Ltac Zify.zify_post_hook ::= Z.div_mod_to_equations.

(** ** C23 *)
(** The full property: filter returns a table with exactly the accepted
    entries.  It does not hold: the bucket number of the original is used to
    delete from the clone, whose layout differs. *)
Definition filter_correct (uniq : Z -> Z) (junk : Z -> Z * Z) (t : table) (p : Z -> bool) : Prop :=
  exists t2, table_filter uniq junk t false (fun k (_ : unit) => Ok (tt, PN_BOOL (p k)))
               (fun k v _ => Ok (tt, PN_NIL)) tt = Ok (tt, t2) /\
  forall k, table_at uniq t2 k = if p k then table_at uniq t k else Ok PN_NIL.

(** a rejected entry survives *)
Theorem C23_filter_keeps_a_rejected_entry_refuted :
  ~ (forall uniq js junk h t rs p, puts h <= 16777216 -> impl_run uniq js h table_empty = Ok (t, rs) ->
     filter_correct uniq junk t p).
Proof.
  intros H.
  set (h := [Put (PN_NUM 0) 10; Put (PN_NUM 2) 12; Remove (PN_NUM 0)]).
  destruct (H (fun x => x) (fun _ _ => (0, 0)) (fun _ => (0, 0)) h
     (mkH 4 1 2 3 [(true, false); (false, true); (false, false); (true, false)] [(0, 0); (1, 10); (5, 12); (0, 0)])
     [None; None; None] (fun _ => false)) as (t2 & E & Q).
  - vm_compute. discriminate.
  - vm_compute. reflexivity.
  - vm_compute in E. injection E as <-. specialize (Q 5). vm_compute in Q. discriminate.
Qed.
(** an accepted entry is lost *)
Theorem C23_filter_loses_an_accepted_entry_refuted :
  exists uniq js junk h t rs p k v t2,
    impl_run uniq js h table_empty = Ok (t, rs) /\ table_at uniq t k = Ok v /\ v <> PN_NIL /\ p k = true /\
    table_filter uniq junk t false (fun k (_ : unit) => Ok (tt, PN_BOOL (p k))) (fun k v _ => Ok (tt, PN_NIL)) tt = Ok (tt, t2) /\
    table_at uniq t2 k = Ok PN_NIL.
Proof.
  exists (fun x => x), (fun _ _ => (0, 0)), (fun _ => (0, 0)).
  exists [Put (PN_NUM 0) 10; Put (PN_NUM 2) 12; Put (PN_NUM 4) 14; Remove (PN_NUM 0)].
  do 2 eexists. exists (fun k => k =? PN_NUM 4), (PN_NUM 4), 14. eexists.
  split; [vm_compute; reflexivity|]. split; [vm_compute; reflexivity|]. split; [discriminate|].
  split; [reflexivity|]. split; [vm_compute; reflexivity|]. vm_compute. reflexivity.
Qed.
Lemma del_other_ok uniq (t : table) k : inv Z.eqb (pn_hash uniq) t ->
  (exists e, occ t k e) -> exists t', kh_del t k = Ok t' /\ inv Z.eqb (pn_hash uniq) t' /\
    (forall i e, occ t' i e <-> i <> k /\ occ t i e).
Proof.
  intros I [e O]. destruct (del_ok Z.eqb (pn_hash uniq) Z.eqb_refl t k e I O) as (t' & E & I' & M & _).
  exists t'. split; [exact E|]. split; [exact I'|]. unfold kh_del in E.
  pose proof (occ_range _ _ _ _ _ I O) as R. replace (n_buckets t <? k) with false in E by lia. cbn [andb] in E. destruct (Z.eqb_spec k (n_buckets t)); [lia|]. cbn [negb] in E.
  destruct O as (f & Ef & Lf & Ee). rewrite (grd_Some _ _ _ Ef) in E. cbn [bind] in E. rewrite Lf in E. cbn [negb] in E.
  rewrite gwr_ok in E by (rewrite (inv_fl _ _ _ I); exact R). cbn [bind] in E. injection E as <-.
  intros i e'. unfold occ. cbn [fl kv]. rewrite gnth_gupd by (rewrite (inv_fl _ _ _ I); exact R).
  destruct (Z.eqb_spec k i) as [->|NE].
  - split; [|intros [A _]; congruence]. intros (f' & A & B & _). injection A as <-. unfold iseither in B. cbn in B.
    rewrite orb_true_r in B. discriminate.
  - split; [|tauto]. intros A. split; [congruence|exact A].
Qed.

Lemma gnth_lt {A} (l : list A) k : 0 <= k < zlen l -> exists x, gnth l k = Some x.
Proof.
  intros H. unfold gnth. replace (k <? 0) with false by lia. destruct (nth_error l (Z.to_nat k)) eqn:E; [eauto|].
  apply nth_error_None in E. unfold zlen in H. lia.
Qed.
Lemma at_cases uniq (t : table) k : inv Z.eqb (pn_hash uniq) t ->
  (exists v, mem t (k, v) /\ table_at uniq t k = Ok v) \/ ((forall v, ~ mem t (k, v)) /\ table_at uniq t k = Ok PN_NIL).
Proof.
  intros I. unfold table_at.
  destruct (get_ok Z.eqb (pn_hash uniq) Z.eqb_refl Z.eqb_sym (zeq_trans uniq) (zeq_compat uniq) t k I)
    as [(i & e & O & Q & G)|(N & G)]; rewrite G; cbn [bind].
  - pose proof (occ_range _ _ _ _ _ I O). destruct (Z.eqb_spec i (n_buckets t)); [lia|]. cbn [negb].
    left. pose proof O as (f & Ef & Lf & Ee). rewrite (grd_Some _ _ _ Ee). cbn [bind].
    apply Z.eqb_eq in Q. destruct e as [k' v]. cbn in Q. subst k'. exists v. split; [exists i; exact O | reflexivity].
  - right. rewrite Z.eqb_refl. cbn. split; [|reflexivity]. intros v M. apply N in M. cbn in M. lia.
Qed.
Lemma mem_at uniq (t : table) k v : inv Z.eqb (pn_hash uniq) t -> mem t (k, v) -> table_at uniq t k = Ok v.
Proof.
  intros I M. destruct (at_cases uniq t k I) as [(v' & M' & ->)|(N & _)]; [|destruct (N v M)].
  destruct M as [i O], M' as [j O']. assert (i = j) by (apply (inv_uniq _ _ _ I _ _ _ _ O O'), Z.eqb_refl). subst j.
  pose proof (occ_inj _ _ _ _ O O') as Q. injection Q as ->. reflexivity.
Qed.
Lemma nomem_at uniq (t : table) k : inv Z.eqb (pn_hash uniq) t -> (forall v, ~ mem t (k, v)) -> table_at uniq t k = Ok PN_NIL.
Proof. intros I N. destruct (at_cases uniq t k I) as [(v & M & _)|(_ & ->)]; [destruct (N v M) | reflexivity]. Qed.
Lemma nomem_or uniq (t : table) k : inv Z.eqb (pn_hash uniq) t -> (exists v, mem t (k, v)) \/ (forall v, ~ mem t (k, v)).
Proof. intros I. destruct (at_cases uniq t k I) as [(v & M & _)|(N & _)]; eauto. Qed.

(** ** Exactly what filter does *)
(** the block's answer for an entry; the block of one parameter only sees the key *)
Definition asked (with_val : bool) (p1 : Z -> bool) (p2 : Z -> Z -> bool) (e : Z * Z) : bool :=
  if with_val then p2 (fst e) (snd e) else p1 (fst e).
Definition filter_with uniq junk t with_val p1 p2 : res (unit * table) :=
  table_filter uniq junk t with_val (fun k (_ : unit) => Ok (tt, PN_BOOL (p1 k))) (fun k v _ => Ok (tt, PN_BOOL (p2 k v))) tt.
(** bucket [i] of the receiver holds an entry that the block rejects *)
Definition rejected (t : table) (p : Z * Z -> bool) (i : Z) : Prop := exists e, occ t i e /\ p e = false.
Lemma del_any uniq (t : table) k : inv Z.eqb (pn_hash uniq) t -> 0 <= k -> (k <= n_buckets t \/ k < 16) ->
  exists t', kh_del t k = Ok t' /\ inv Z.eqb (pn_hash uniq) t' /\ n_buckets t' = n_buckets t /\ (forall i e, occ t' i e <-> i <> k /\ occ t i e).
Proof.
  intros I K0 K. pose proof (inv_fl _ _ _ I) as LF. pose proof (inv_kv _ _ _ I) as LK.
  assert (NB : forall t', kh_del t k = Ok t' -> n_buckets t' = n_buckets t).
  { intros t'. unfold kh_del. destruct (_ && _); [intros E; injection E as <-; reflexivity|]. destruct (negb _); [|intros E; injection E as <-; reflexivity].
    destruct (grd (fl t) k); cbn [bind]; [|discriminate|discriminate]. destruct (negb _); [|intros E; injection E as <-; reflexivity].
    destruct (gwr _ _ _); cbn [bind]; [|discriminate|discriminate]. intros E; injection E as <-; reflexivity. }
  assert (OUT : forall e, n_buckets t <= k -> ~ occ t k e).
  { intros e L O. pose proof (occ_range _ _ _ _ _ I O). lia. }
  destruct (Z_lt_le_dec k (n_buckets t)) as [L|L].
  - destruct (gnth (fl t) k) as [f|] eqn:Ef.
    2: { destruct (gnth_lt (fl t) k) as [x Ex]; [lia|]. congruence. }
    destruct (gnth_lt (kv t) k) as [e Ee]; [lia|].
    destruct (iseither f) eqn:F.
    + exists t. assert (ED : kh_del t k = Ok t).
      { unfold kh_del. replace (n_buckets t <? k) with false by lia. cbn [andb]. replace (k =? n_buckets t) with false by lia. cbn [negb].
        rewrite (grd_Some _ _ _ Ef). cbn [bind]. rewrite F. reflexivity. }
      split; [exact ED|]. split; [exact I|]. split; [reflexivity|]. intros i e'. split; [|tauto]. intros O. split; [|exact O]. intros ->.
      destruct O as (f' & A & B & _). congruence.
    + assert (O : occ t k e) by (exists f; auto). destruct (del_other_ok uniq t k I (ex_intro _ e O)) as (t' & E & I' & O').
      exists t'. eauto.
  - exists t. assert (ED : kh_del t k = Ok t).
    { unfold kh_del. destruct (n_buckets t <? k) eqn:Q; [replace (k <? 16) with true by lia; reflexivity|]. cbn [andb].
      replace (k =? n_buckets t) with true by lia. reflexivity. }
    split; [exact ED|]. split; [exact I|]. split; [reflexivity|]. intros i e. split; [|tauto]. intros O. split; [|exact O]. intros ->.
    exact (OUT e L O).
Qed.
Lemma del_beyond (t : table) k : zlen (fl t) = n_buckets t -> n_buckets t < k -> 16 <= k -> kh_del t k = UB.
Proof.
  intros LF L K. unfold kh_del. replace (k <? 16) with false by lia. rewrite andb_false_r. replace (k =? n_buckets t) with false by lia. cbn [negb].
  unfold grd. destruct (gnth (fl t) k) eqn:E; [|reflexivity]. pose proof (gnth_Some _ _ _ E). lia.
Qed.
Theorem C23_filter_exactly : forall uniq js junk h t rs with_val p1 p2, puts h <= 16777216 ->
  impl_run uniq js h table_empty = Ok (t, rs) ->
  exists copy, table_clone uniq junk t = Ok copy /\
  (* no rejected entry lies behind the buckets of the copy *)
  ((forall i, rejected t (asked with_val p1 p2) i -> i <= n_buckets copy \/ i < 16) ->
   exists t3, filter_with uniq junk t with_val p1 p2 = Ok (tt, t3) /\
   (forall i k v, occ copy i (k, v) -> rejected t (asked with_val p1 p2) i -> table_at uniq t3 k = Ok PN_NIL) /\
   (forall i k v, occ copy i (k, v) -> ~ rejected t (asked with_val p1 p2) i -> table_at uniq t3 k = Ok v /\ table_at uniq t k = Ok v) /\
   (forall k, table_at uniq t k = Ok PN_NIL -> table_at uniq t3 k = Ok PN_NIL)) /\
  (* one does *)
  ((exists i, rejected t (asked with_val p1 p2) i /\ n_buckets copy < i /\ 16 <= i) ->
   filter_with uniq junk t with_val p1 p2 = UB).
Proof.
  intros uniq js junk h t rs wv p1 p2 L E. set (p := asked wv p1 p2). destruct (run_ok uniq js h table_empty [] (refines_empty uniq)) as (t' & E' & R & O).
  { cbn. unfold limit. lia. }
  rewrite E in E'. injection E' as <- _. pose proof R as [D N]. pose proof D as [I HM]. cbn in O.
  destruct (clone_den uniq junk t _ D) as (t2 & EC & D2 & O2); [unfold limit; lia|]. pose proof D2 as [I2 HM2].
  exists t2. split; [exact EC|].
  set (body := fun (p0 : Z * (Z * Z)) '((s, t2) : unit * table) =>
       do (s, r) <- (if wv then Ok (tt, PN_BOOL (p2 (fst (snd p0)) (snd (snd p0)))) else Ok (tt, PN_BOOL (p1 (fst (snd p0)))));
       if negb (PN_TEST r) then do t2 <- kh_del t2 (fst p0); Ok (s, t2) else Ok (s, t2)).
  assert (EF : filter_with uniq junk t wv p1 p2 = foldr body (ientries t) (tt, t2)).
  { unfold filter_with, table_filter. rewrite EC. cbn [bind]. rewrite each_fold by apply I. reflexivity. }
  assert (TB : forall b, PN_TEST (PN_BOOL b) = b) by (intros []; reflexivity).
  assert (BD : forall i e tc, body (i, e) (tt, tc) = if p e then Ok (tt, tc) else do t2 <- kh_del tc i; Ok (tt, t2)).
  { intros i e tc. unfold body, p, asked. cbn [fst snd]. destruct wv; cbn [bind]; rewrite TB; [destruct (p2 _ _) | destruct (p1 _)]; reflexivity. }
  assert (POS : forall i e, In (i, e) (ientries t) -> 0 <= i).
  { intros i e H. apply ientries_occ in H. pose proof (occ_range _ _ _ _ _ I H). lia. }
  split.
  - intros IN. assert (G : forall l tc, (forall i e, In (i, e) l -> 0 <= i /\ (p e = false -> i <= n_buckets tc \/ i < 16)) -> inv Z.eqb (pn_hash uniq) tc ->
     exists t3, foldr body l (tt, tc) = Ok (tt, t3) /\ inv Z.eqb (pn_hash uniq) t3 /\
       forall i e, occ t3 i e <-> occ tc i e /\ forall e0, In (i, e0) l -> p e0 = true).
    { clear - BD. induction l as [|[i e] l IH]; intros tc B Ic.
      - exists tc. split; [reflexivity|]. split; [exact Ic|]. intros i e. split; [intros A; split; [exact A | intros ? []] | tauto].
      - cbn [foldr]. rewrite BD. destruct (B i e (or_introl eq_refl)) as [B0 B1]. destruct (p e) eqn:Pe; cbn [bind].
        + destruct (IH tc) as (t3 & E3 & I3 & O3); [intros; apply B; right; assumption | exact Ic|].
          exists t3. split; [exact E3|]. split; [exact I3|]. intros j e'. rewrite O3. split.
          * intros [A C]. split; [exact A|]. intros e0 [Q|Q]; [injection Q as <- <-; exact Pe | apply C, Q].
          * intros [A C]. split; [exact A|]. intros e0 Q. apply C. right. exact Q.
        + destruct (del_any uniq tc i Ic B0 (B1 eq_refl)) as (t1 & E1 & I1 & N1 & O1). rewrite E1. cbn [bind].
          destruct (IH t1) as (t3 & E3 & I3 & O3); [intros; rewrite N1; apply B; right; assumption | exact I1|].
          exists t3. split; [exact E3|]. split; [exact I3|]. intros j e'. rewrite O3, O1. split.
          * intros [[A1 A2] C]. split; [exact A2|]. intros e0 [Q|Q]; [congruence | apply C, Q].
          * intros [A C]. split; [split; [|exact A]|].
            -- intros ->. specialize (C e (or_introl eq_refl)). congruence.
            -- intros e0 Q. apply C. right. exact Q. }
    destruct (G (ientries t) t2) as (t3 & E3 & I3 & O3); [|exact I2|].
    { intros i e H. split; [exact (POS i e H)|]. intros Pe. apply IN. exists e. split; [apply ientries_occ, H | exact Pe]. }
    exists t3. split; [rewrite EF; exact E3|].
    assert (O3' : forall i e, occ t3 i e <-> occ t2 i e /\ ~ rejected t p i).
    { intros i e. rewrite O3. split; intros [A B]; (split; [exact A|]).
      - intros (e0 & C & Q). apply ientries_occ in C. rewrite (B e0 C) in Q. discriminate.
      - intros e0 C. destruct (p e0) eqn:Q; [reflexivity|]. exfalso. apply B. exists e0. split; [apply ientries_occ, C | exact Q]. }
    assert (AT : forall k v, mem t3 (k, v) -> table_at uniq t3 k = Ok v).
    { intros k v M. exact (mem_at uniq t3 k v I3 M). }
    assert (NAT : forall k, (forall v, ~ mem t3 (k, v)) -> table_at uniq t3 k = Ok PN_NIL).
    { intros k M. exact (nomem_at uniq t3 k I3 M). }
    split; [|split].
    + intros i k v Oi Rj. apply NAT. intros v' [j Oj]. apply O3' in Oj. destruct Oj as [Oj Nj].
      assert (i = j) by (apply (inv_uniq _ _ _ I2 _ _ _ _ Oi Oj), Z.eqb_refl). subst j. contradiction.
    + intros i k v Oi NR. split; [apply AT; exists i; apply O3'; auto|]. rewrite (at_den uniq t _ k D).
      assert (M : find_key k (fst (spec_run h [])) = Some v) by (apply HM2; exists i; exact Oi). rewrite M. reflexivity.
    + intros k K. destruct (find_key k (fst (spec_run h []))) as [v|] eqn:F.
      * pose proof K as K'. rewrite (at_den uniq t _ k D), F in K'. injection K' as ->.
        assert (M : mem t2 (k, PN_NIL)) by (apply HM2; exact F). destruct (nomem_or uniq t3 k I3) as [[v M3]|NM]; [|apply NAT; exact NM].
        rewrite (AT k v M3). destruct M3 as [i Oi]. apply O3' in Oi. assert (M2 : mem t2 (k, v)) by (exists i; apply Oi). apply HM2 in M2. congruence.
      * apply NAT. intros v [i Oi]. apply O3' in Oi. assert (M2 : mem t2 (k, v)) by (exists i; apply Oi). apply HM2 in M2. congruence.
  - intros (i & (e & Oi & Pe) & B1 & B2). rewrite EF. apply ientries_occ in Oi.
    assert (G : forall l tc, In (i, e) l -> (forall j e, In (j, e) l -> 0 <= j) -> inv Z.eqb (pn_hash uniq) tc -> n_buckets tc = n_buckets t2 -> foldr body l (tt, tc) = UB).
    { clear Oi EF. induction l as [|[j e'] l IH]; intros tc H PL Ic NB; [destruct H|]. cbn [foldr]. rewrite BD. destruct (p e') eqn:Q; cbn [bind].
      - apply IH; try assumption; [destruct H as [H|H]; [injection H as -> ->; congruence | exact H]|]. intros; eapply PL; right; eassumption.
      - destruct (Z_lt_le_dec (n_buckets tc) j) as [J|J]; [destruct (Z_lt_le_dec j 16) as [J'|J']|].
        3: { destruct (del_any uniq tc j Ic (PL j e' (or_introl eq_refl)) (or_introl J)) as (t1 & E1 & I1 & N1 & O1). rewrite E1. cbn [bind].
             apply IH; [destruct H as [H|H]; [injection H as -> ->; lia | exact H] | intros; eapply PL; right; eassumption | exact I1 | congruence]. }
        + destruct (del_any uniq tc j Ic (PL j e' (or_introl eq_refl)) (or_intror J')) as (t1 & E1 & I1 & N1 & O1). rewrite E1. cbn [bind].
          apply IH; [destruct H as [H|H]; [injection H as -> ->; lia | exact H] | intros; eapply PL; right; eassumption | exact I1 | congruence].
        + rewrite (del_beyond tc j (inv_fl _ _ _ Ic) J J'). reflexivity. }
    apply G; [exact Oi | exact POS | exact I2 | reflexivity].
Qed.

(** so filter is right whenever copying leaves every entry in its bucket *)
Theorem C23_filter_when_layout_is_kept :
  forall uniq js junk h t rs p t2, puts h <= 16777216 -> impl_run uniq js h table_empty = Ok (t, rs) ->
  table_clone uniq junk t = Ok t2 ->
  (forall i e, occ t i e -> occ t2 i e) ->
  filter_correct uniq junk t p.
Proof.
  intros uniq js junk h t rs p t2 L E EC LAY.
  destruct (C23_filter_exactly uniq js junk h t rs false p (fun _ _ => false) L E) as (t2' & EC' & OK & _).
  rewrite EC in EC'. injection EC' as <-. destruct (run_ok uniq js h table_empty [] (refines_empty uniq)) as (t' & E' & R & O).
  { cbn. unfold limit. lia. }
  rewrite E in E'. injection E' as <- _. pose proof R as [D N]. pose proof D as [I HM]. cbn in O.
  destruct (clone_den uniq junk t _ D) as (t2' & E2 & D2 & O2); [unfold limit; lia|].
  rewrite EC in E2. injection E2 as <-. pose proof D2 as [I2 HM2].
  destruct OK as (t3 & E3 & A1 & A2 & A3).
  { intros i (e & Oi & _). apply LAY in Oi. pose proof (occ_range _ _ _ _ _ I2 Oi). lia. }
  exists t3. split; [exact E3|]. intros k. destruct (nomem_or uniq t k I) as [[v [i Oi]]|NM].
  - pose proof (LAY _ _ Oi) as Oi2. destruct (p k) eqn:Pk.
    + destruct (A2 i k v Oi2) as [B1 B2]; [|congruence]. intros (e & Oe & Pe). pose proof (occ_inj _ _ _ _ Oe Oi) as ->. cbn in Pe. congruence.
    + apply (A1 i k v Oi2). exists (k, v). split; [exact Oi | exact Pk].
  - pose proof (nomem_at uniq t k I NM) as K. rewrite K. rewrite (A3 k K). destruct (p k); reflexivity.
Qed.
(** a rejected entry behind the buckets of the copy does occur: 30 entries are put and
    all but the last removed *)
Theorem C23_filter_out_of_bounds_refuted :
  exists uniq js junk h t rs p,
    impl_run uniq js h table_empty = Ok (t, rs) /\
    table_filter uniq junk t false (fun k (_ : unit) => Ok (tt, PN_BOOL (p k))) (fun k v _ => Ok (tt, PN_NIL)) tt = UB.
Proof.
  exists (fun x => x), (fun _ _ => (0, 0)), (fun _ => (0, 0)).
  exists (map (fun i => Put (PN_NUM i) 10) (zseq 0 30) ++ map (fun i => Remove (PN_NUM i)) (zseq 0 29)).
  do 2 eexists. exists (fun k => false).
  split; [vm_compute; reflexivity|]. vm_compute. reflexivity.
Qed.
(** such tables exist *)
Example C23_example : let js := fun (_ : nat) (_ : Z) => (77, 78) in
  exists t rs t2, impl_run (fun x => x) js [Put 3 10; Put 4 11; Put 5 12] table_empty = Ok (t, rs) /\
   table_clone (fun x => x) (js O) t = Ok t2 /\ (forall i e, occ t i e -> occ t2 i e) /\ table_length t = PN_NUM 3.
Proof.
  do 3 eexists. split; [vm_compute; reflexivity|]. split; [vm_compute; reflexivity|].
  split; [|vm_compute; reflexivity]. intros i e H. exact H.
Qed.

(** ** C25 *)
Lemma cast_ok uniq junk tu : wf tu -> t_len tu <= 16777216 ->
  exists t, table_cast uniq junk tu = Ok t /\ n_occupied t <= t_len tu /\
    denotes uniq t (put_list (combine (map PN_NUM (zseq 0 (length (contents tu)))) (contents tu)) (fun _ => None)).
Proof.
  intros W L. unfold table_cast. rewrite TUPLE_EACH_ok by exact W.
  assert (LC : zlen (contents tu) = t_len tu).
  { destruct W as (A & B & C). unfold contents. rewrite zlen_ztake by lia. reflexivity. }
  assert (G : forall l idx t m, denotes uniq t m -> n_occupied t + zlen l <= limit ->
    exists t', walk (S := khash Z Z) (R := Empty_set) (fun i v t =>
      do (t, k, _) <- kh_put Z.eqb (pn_hash uniq) junk t (PN_NUM i);
      do t <- kh_set_val t k v; Ok (inl t)) idx l t = Ok (inl t') /\ n_occupied t' <= n_occupied t + zlen l /\
      denotes uniq t' (put_list (combine (map PN_NUM (zseq idx (length l))) l) m)).
  { induction l as [|v l IH]; intros idx t m D Q.
    - exists t. split; [reflexivity|]. split; [rewrite zlen_nil; lia|]. exact D.
    - rewrite zlen_cons in *. pose proof (zlen_nonneg l).
      destruct (put_den uniq junk t m (PN_NUM idx) v D) as (t1 & P & D1 & O1); [lia|]. unfold table_put in P.
      cbn [walk]. destruct (kh_put Z.eqb (pn_hash uniq) junk t (PN_NUM idx)) as [[[t1' x] r]| |]; try discriminate.
      cbn [bind] in *. rewrite P. cbn [bind].
      destruct (IH (idx + 1) t1 _ D1) as (t2 & E2 & O2 & D2); [lia|]. exists t2. split; [exact E2|]. split; [lia|]. exact D2. }
  destruct (G (contents tu) 0 table_empty _ (den_empty uniq)) as (t & E & O & D).
  - cbn. unfold limit. lia.
  - exists t. rewrite E. split; [reflexivity|]. split; [cbn in O; lia|exact D].
Qed.
Lemma zseq_nth a n i : (i < n)%nat -> nth i (zseq a n) 0 = a + Z.of_nat i.
Proof.
  revert a i. induction n as [|n IH]; intros a i H; [lia|]. destruct i as [|i]; cbn [zseq nth]; [lia|].
  rewrite IH by lia. lia.
Qed.
Lemma zseq_len a n : length (zseq a n) = n.
Proof. revert a. induction n as [|n IH]; intros a; [reflexivity|]. cbn. rewrite IH. reflexivity. Qed.
Lemma zseq_In a n x : In x (zseq a n) <-> a <= x < a + Z.of_nat n.
Proof.
  revert a. induction n as [|n IH]; intros a; cbn [zseq In]; [lia|]. rewrite IH. lia.
Qed.
Lemma zseq_NoDup a n : NoDup (zseq a n).
Proof.
  revert a. induction n as [|n IH]; intros a; cbn [zseq]; constructor; [|apply IH]. rewrite zseq_In. lia.
Qed.
Lemma PN_NUM_small i : 0 <= i < two62 -> PN_NUM i = 2 * i + 1.
Proof. unfold PN_NUM, u64, two62, two64. lia. Qed.
Lemma map_fst_combine {A B} (a : list A) (b : list B) : length a = length b -> map fst (combine a b) = a.
Proof. revert b. induction a as [|x a IH]; intros [|y b] H; cbn in *; try congruence. f_equal. apply IH. lia. Qed.

(** the table made from a tuple maps every former index to its element and nothing else *)
Theorem C25_cast_maps_each_index_to_its_element :
  forall uniq junk tu, wf tu -> t_len tu <= 16777216 ->
  exists t, table_cast uniq junk tu = Ok t /\
    (forall i, 0 <= i < t_len tu -> table_at uniq t (PN_NUM i) = Ok (znth (contents tu) i)) /\
    (forall k, (forall i, 0 <= i < t_len tu -> k <> PN_NUM i) -> table_at uniq t k = Ok PN_NIL) /\
    table_length t = PN_NUM (t_len tu).
Proof.
  intros uniq junk tu W L. destruct (cast_ok uniq junk tu W L) as (t & E & O & D).
  assert (LC : zlen (contents tu) = t_len tu).
  { destruct W as (A & B & C). unfold contents. rewrite zlen_ztake by lia. reflexivity. }
  set (l := combine (map PN_NUM (zseq 0 (length (contents tu)))) (contents tu)) in *.
  assert (LK : map fst l = map PN_NUM (zseq 0 (length (contents tu)))).
  { unfold l. apply map_fst_combine. rewrite map_length, zseq_len. reflexivity. }
  assert (NDl : NoDup (map fst l)).
  { rewrite LK. apply NoDup_nth with (d := 0). intros i j Hi Hj Q. rewrite map_length, zseq_len in Hi, Hj.
    rewrite (nth_indep _ 0 (PN_NUM 0)) in Q by (rewrite map_length, zseq_len; lia).
    rewrite (nth_indep (map PN_NUM _) 0 (PN_NUM 0)) in Q by (rewrite map_length, zseq_len; lia).
    rewrite !map_nth, !zseq_nth, !PN_NUM_small in Q by (unfold zlen in *; unfold two62; lia). lia. }
  assert (InL : forall i, 0 <= i < t_len tu -> In (PN_NUM i, znth (contents tu) i) l).
  { intros i Hi. unfold l.
    assert (X : nth (Z.to_nat i) (combine (map PN_NUM (zseq 0 (length (contents tu)))) (contents tu)) (PN_NUM 0, 0) = (PN_NUM i, znth (contents tu) i)).
    { rewrite combine_nth by (rewrite map_length, zseq_len; reflexivity).
      rewrite map_nth, zseq_nth by (unfold zlen in LC; lia). unfold znth. do 2 f_equal; lia. }
    rewrite <- X. apply nth_In. rewrite combine_length, map_length, zseq_len. unfold zlen in LC. lia. }
  exists t. split; [exact E|]. split; [|split].
  - intros i Hi. rewrite (at_den uniq t _ _ D). rewrite (put_list_In uniq l _ _ _ NDl (InL i Hi)). reflexivity.
  - intros k Hk. rewrite (at_den uniq t _ _ D). rewrite (put_list_other uniq); [reflexivity|].
    rewrite LK. intros C. apply in_map_iff in C. destruct C as (i & Ei & C). apply zseq_In in C.
    apply (Hk i); [unfold zlen in LC; lia|congruence].
  - unfold table_length. f_equal. rewrite <- (entries_len uniq t (proj1 D)).
    assert (P : Permutation (entries t) l).
    { apply NoDup_Permutation.
      - apply (NoDup_map_inv fst), (entries_NoDup uniq), D.
      - apply (NoDup_map_inv fst), NDl.
      - intros [k v]. rewrite <- (den_entries uniq t _ D). split.
        + intros F. destruct (in_dec Z.eq_dec k (map fst l)) as [Y|Y].
          * apply in_map_iff in Y. destruct Y as ((k' & v') & Q & Y). cbn in Q. subst k'.
            rewrite (put_list_In uniq l _ _ _ NDl Y) in F. congruence.
          * rewrite (put_list_other uniq) in F by exact Y. discriminate.
        + intros Y. apply (put_list_In uniq); assumption. }
    rewrite (zlen_perm _ _ P). unfold l. unfold zlen. rewrite combine_length, map_length, zseq_len.
    unfold zlen in LC. lia.
Qed.
(** storing under any key (table.c 152-155) adds exactly that entry *)
Theorem C25_set_on_a_tuple_adds_the_entry :
  forall uniq junk tu key v, wf tu -> t_len tu < 16777216 ->
  exists t, table_set uniq junk (inl tu) key v = Ok t /\
    table_at uniq t key = Ok v /\
    (forall i, 0 <= i < t_len tu -> key <> PN_NUM i -> table_at uniq t (PN_NUM i) = Ok (znth (contents tu) i)) /\
    (forall k, k <> key -> (forall i, 0 <= i < t_len tu -> k <> PN_NUM i) -> table_at uniq t k = Ok PN_NIL).
Proof.
  intros uniq junk tu key v W L. destruct (C25_cast_maps_each_index_to_its_element uniq junk tu W ltac:(lia)) as (t0 & E0 & A & B & _).
  destruct (cast_ok uniq junk tu W ltac:(lia)) as (t0' & E0' & O & D). rewrite E0 in E0'. injection E0' as <-.
  destruct (put_den uniq junk t0 _ key v D) as (t & E & D1 & _); [unfold limit; lia|].
  exists t. unfold table_set. rewrite E0. cbn [bind]. split; [exact E|].
  assert (OTH : forall k, k <> key -> table_at uniq t k = table_at uniq t0 k).
  { intros k NE. rewrite (at_den uniq t _ k D1), (at_den uniq t0 _ k D). unfold upd_map.
    destruct (Z.eqb_spec k key); [contradiction|reflexivity]. }
  split; [|split].
  - rewrite (at_den uniq t _ _ D1). unfold upd_map. rewrite Z.eqb_refl. reflexivity.
  - intros i Hi NE. rewrite OTH by congruence. apply A, Hi.
  - intros k NE NI. rewrite OTH by exact NE. apply B, NI.
Qed.
Example C25_example : exists t, wf (mkT 2 3 [40; 50; 99]) /\
  table_set (fun x => x) (fun _ => (7, 8)) (inl (mkT 2 3 [40; 50; 99])) 4096 60 = Ok t /\ table_length t = PN_NUM 3.
Proof.
  eexists. split; [unfold wf, zlen; cbn; lia|]. split; [vm_compute; reflexivity|]. vm_compute. reflexivity.
Qed.
