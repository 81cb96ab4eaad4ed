(** C52: tables across collections. *)
From Coq Require Import ZifyBool.
From Verif Require Import Base Arr GArr WordModel WordProofs LayoutModel KhashModel TableModel GcModel GcSpec GcProofs AllocModel PropGc PropAlloc HistSpec PropHist.

(** ** Reading a table object as the table of TableModel *)
Definition decode (o : obj) : table :=
  let nb := lo32 (word o 1) in
  mkH nb (hi32 (word o 1)) (lo32 (word o 2)) (hi32 (word o 2))
      (map (fun k => flag_of (fun g => word o (3 + g)) k) (zseq 0 (Z.to_nat nb)))
      (map (fun k => (word o (3 + nflags nb + 2 * k), word o (3 + nflags nb + 2 * k + 1))) (zseq 0 (Z.to_nat nb))).
(** the id field of the object at an address (potion.h 236) *)
Definition uniq_in (h : heap) (a : Z) : Z := match h a with Some o => hi32 (word o 0) | None => 0 end.
(** a word that is an immediate, or the address of an object itself (not of a stub) *)
Definition direct (h : heap) (w : Z) : Prop := PN_IS_PTR w = true -> exists o, h w = Some o /\ is_fwd o = false.

Lemma either_flag w i : w_iseither w i = w_isempty w i || w_isdel w i.
Proof.
  unfold w_iseither, w_isempty, w_isdel. set (x := Z.shiftr w (fshift i)).
  assert (E : Z.land x 3 = Z.lor (Z.land x 2) (Z.land x 1)) by (rewrite <- Z.land_lor_distr_r; reflexivity).
  rewrite E. destruct (Z.eqb_spec (Z.land x 2) 0) as [->|N2]; [rewrite Z.lor_0_l; reflexivity|].
  destruct (Z.eqb_spec (Z.lor (Z.land x 2) (Z.land x 1)) 0) as [E0|]; [|reflexivity].
  apply Z.lor_eq_0_iff in E0. tauto.
Qed.
Lemma gnth_map_zseq {A} (f : Z -> A) : forall n a i, 0 <= i < Z.of_nat n -> gnth (map f (zseq a n)) i = Some (f (a + i)).
Proof.
  induction n as [|n IH]; intros a i Hi; [lia|]. cbn [zseq map]. destruct (Z.eq_dec i 0) as [->|N].
  - rewrite Z.add_0_r. reflexivity.
  - change (f a :: map f (zseq (a + 1) n)) with ([f a] ++ map f (zseq (a + 1) n)). rewrite gnth_app2 by (change (zlen [f a]) with 1; lia).
    change (zlen [f a]) with 1. rewrite IH by lia. f_equal. f_equal. lia.
Qed.

(** ** The search in two tables with corresponding keys *)
Section Sim.
Variables (u u' : Z -> Z) (t t' : table) (key key' : Z).
Hypothesis Hn : n_buckets t' = n_buckets t.
Hypothesis Hf : fl t' = fl t.
Hypothesis Hl : zlen (kv t') = zlen (kv t).
Hypothesis Hk : forall i f e, gnth (fl t) i = Some f -> iseither f = false -> gnth (kv t) i = Some e ->
  exists e', gnth (kv t') i = Some e' /\ ((fst e' =? key') = (fst e =? key)).
Hypothesis Hh : pn_hash u' key' = pn_hash u key.
Lemma grd_cases {A} (l : list A) i : match gnth l i with Some x => grd l i = Ok x | None => grd l i = UB end.
Proof. unfold grd. destruct (gnth l i); reflexivity. Qed.
Lemma get_loop_sim : forall fuel i inc last mask,
  get_loop Z.eqb fuel t' key' i inc last mask = get_loop Z.eqb fuel t key i inc last mask.
Proof.
  induction fuel as [|f IH]; intros i inc last mask; [reflexivity|]. cbn [get_loop]. rewrite Hf, Hn.
  pose proof (grd_cases (fl t) i) as G. destruct (gnth (fl t) i) as [fi|] eqn:E; rewrite G; [|reflexivity]. cbn [bind].
  destruct (isempty fi) eqn:Em; [reflexivity|].
  pose proof (grd_cases (kv t) i) as G1. pose proof (grd_cases (kv t') i) as G2.
  destruct (gnth (kv t) i) as [e|] eqn:E1.
  - assert (R : 0 <= i < zlen (kv t')) by (rewrite Hl; eapply gnth_Some; eauto).
    destruct (gnth_in (kv t') i R) as (e' & E2). rewrite E2 in G2. rewrite G1, G2. cbn [bind].
    assert (C : isdel fi || negb (fst e' =? key') = isdel fi || negb (fst e =? key)).
    { destruct (isdel fi) eqn:D; [reflexivity|]. destruct (Hk i fi e E) as (e2 & E3 & K); [unfold iseither; rewrite Em, D; reflexivity|auto|].
      replace e2 with e' in * by congruence. rewrite K. reflexivity. }
    rewrite C, IH. reflexivity.
  - assert (E2 : gnth (kv t') i = None).
    { apply gnth_None. rewrite Hl. intros R. destruct (gnth_in (kv t) i R) as (x & X). congruence. }
    rewrite E2 in G2. rewrite G1, G2. reflexivity.
Qed.
Lemma kh_get_sim : kh_get Z.eqb (pn_hash u') t' key' = kh_get Z.eqb (pn_hash u) t key.
Proof. unfold kh_get. rewrite Hn, Hf, Hh, get_loop_sim. reflexivity. Qed.
(** a found bucket is occupied *)
Lemma kh_get_occ k : kh_get Z.eqb (pn_hash u) t key = Ok k -> k <> n_buckets t -> n_buckets t <> 0 ->
  exists f, gnth (fl t) k = Some f /\ iseither f = false.
Proof.
  unfold kh_get. intros H N N0. destruct (Z.eqb_spec (n_buckets t) 0); [contradiction|]. cbn [negb] in H.
  destruct (get_loop _ _ _ _ _ _ _ _) as [i| |]; try discriminate. cbn [bind] in H.
  destruct (Z.eqb_spec i (n_buckets t)); [congruence|]. pose proof (grd_cases (fl t) i) as G.
  destruct (gnth (fl t) i) as [f|] eqn:E; rewrite G in H; [|discriminate]. cbn [bind] in H.
  destruct (iseither f) eqn:Ei; [congruence|]. injection H as <-. exists f. auto.
Qed.
End Sim.

(** ** C52 *)
Lemma live_is_obj c h stack v : live c h stack v -> exists o, h v = Some o /\ is_fwd o = false.
Proof.
  assert (E : forall w v, leads h w v -> PN_IS_PTR v = true -> exists o, h v = Some o /\ is_fwd o = false).
  { intros w x (n & Ch) P. eapply chain_end; eauto. }
  intros L. destruct L; eauto.
Qed.
(** a collection moved the live table at a and everything it refers to.  A lookup in the
    moved table, with the moved key, gives the moved value *)
Theorem C52_lookup_survives_a_collection :
  forall c h h' stack stack' img a o o' key r,
  (forall x ox, h x = Some ox -> PN_IS_PTR x = true /\ wfobj c ox) -> (forall x ox, h' x = Some ox -> PN_IS_PTR x = true) ->
  preserved c h h' stack stack' img ->
  live c h stack a -> h a = Some o -> h' (img a) = Some o' -> o_vt o = PN_TTABLE ->
  (* the keys of the table and the key looked for are no stubs *)
  (forall k, In k (zseq 0 (Z.to_nat (lo32 (word o 1)))) -> occupied o k = true ->
     direct h (word o (3 + nflags (lo32 (word o 1)) + 2 * k))) ->
  direct h key -> (PN_IS_PTR key = true -> live c h stack key) ->
  table_at (uniq_in h) (decode o) key = Ok r ->
  exists r', table_at (uniq_in h') (decode o') (if PN_IS_PTR key then img key else key) = Ok r' /\ word_kept h h' img r r'.
Proof.
  intros c h h' stack stack' img a o o' key r Wf Wf' Pv La Ha Ha' V Dk Dkey Lkey H.
  destruct (p_obj _ _ _ _ _ _ Pv a o La Ha) as (o2 & H2 & Ln & _ & Sm & Sl). replace o2 with o' in * by congruence. clear o2 H2.
  destruct (Wf a o Ha) as (_ & W).
  set (nb := lo32 (word o 1)) in *.
  assert (Fo : is_fwd o = false) by (unfold is_fwd; rewrite V; reflexivity).
  assert (Tr : traced c o = table_slots o /\ saved_stack o = []).
  { unfold traced, saved_stack, is_copied, is_fwd. rewrite V. split; reflexivity. }
  assert (Sls : slots c o = table_slots o) by (unfold slots; destruct Tr as (-> & ->); apply app_nil_r).
  assert (Nnb : 0 <= nb) by (unfold nb, lo32; apply Z.mod_pos_bound; reflexivity).
  assert (Nfl : 0 <= Z.shiftr nb 4) by (apply Z.shiftr_nonneg; auto).
  assert (Low : forall i, 0 <= i < 3 + nflags nb -> word o' i = word o i).
  { intros i Hi. apply Sm; [lia|]. rewrite Sls. intros X. apply table_slots_ge in X. unfold nb in *. lia. }
  assert (E1 : word o' 1 = word o 1) by (apply Low; unfold nflags; lia).
  assert (E2 : word o' 2 = word o 2) by (apply Low; unfold nflags; lia).
  assert (Fl : forall k, 0 <= k < nb -> flag_of (fun g => word o' (3 + g)) k = flag_of (fun g => word o (3 + g)) k).
  { intros k Hk. unfold flag_of. rewrite Low; [reflexivity|]. rewrite Z.shiftr_div_pow2 by lia. unfold nflags. rewrite Z.shiftr_div_pow2 by lia.
    change (2 ^ 4) with 16. assert (k / 16 <= nb / 16) by (apply Z.div_le_mono; lia). pose proof (Z.div_pos k 16). lia. }
  assert (Occ : forall k, 0 <= k < nb -> iseither (flag_of (fun g => word o (3 + g)) k) = negb (occupied o k)).
  { intros k Hk. unfold occupied, iseither, isempty, isdel, flag_of. cbn [fst snd]. rewrite <- either_flag, negb_involutive. reflexivity. }
  assert (Slot : forall k j, 0 <= k < nb -> occupied o k = true -> j = 0 \/ j = 1 ->
    word_kept h h' img (word o (3 + nflags nb + 2 * k + j)) (word o' (3 + nflags nb + 2 * k + j))).
  { intros k j Hk Hocc Hj. apply Sl. rewrite Sls. unfold table_slots. apply in_flat_map. exists k. split; [apply In_zseq; fold nb; lia|].
    rewrite Hocc. fold nb. destruct Hj as [-> | ->]; [left; lia|right; left; lia]. }
  set (mv := fun w => if PN_IS_PTR w then img w else w). change (if PN_IS_PTR key then img key else key) with (mv key).
  assert (ImgP : forall x, live c h stack x -> PN_IS_PTR (img x) = true).
  { intros x Lx. destruct (live_is_obj _ _ _ _ Lx) as (ox & Hx & _). destruct (p_obj _ _ _ _ _ _ Pv x ox Lx Hx) as (ox' & Hx' & _). eauto. }
  (* a direct word in an occupied slot of the table *)
  assert (LiveK : forall k, 0 <= k < nb -> occupied o k = true -> PN_IS_PTR (word o (3 + nflags nb + 2 * k)) = true -> live c h stack (word o (3 + nflags nb + 2 * k))).
  { intros k Hk Hocc P. destruct (Dk k) with (1 := ltac:(apply In_zseq; lia) : In k (zseq 0 (Z.to_nat nb))) as (ok & Hok & Fk); auto.
    eapply lv_field; [exact La|exact Ha| | |exact P].
    - rewrite Sls. unfold table_slots. apply in_flat_map. exists k. split; [apply In_zseq; fold nb; lia|]. rewrite Hocc. fold nb. left. reflexivity.
    - exists 0%nat. eapply ch_obj; eauto. }
  assert (MvK : forall k, 0 <= k < nb -> occupied o k = true -> word o' (3 + nflags nb + 2 * k) = mv (word o (3 + nflags nb + 2 * k))).
  { intros k Hk Hocc. pose proof (Slot k 0 Hk Hocc (or_introl eq_refl)) as (K1 & _ & K3). rewrite Z.add_0_r in *. unfold mv.
    destruct (PN_IS_PTR (word o (3 + nflags nb + 2 * k))) eqn:P.
    - destruct (Dk k) with (1 := ltac:(apply In_zseq; lia) : In k (zseq 0 (Z.to_nat nb))) as (ok & Hok & Fk); auto. eapply K3; eauto.
    - apply K1. destruct (h (word o (3 + nflags nb + 2 * k))) as [ox|] eqn:Hx; [|auto]. destruct (Wf _ _ Hx). congruence. }
  assert (Hash : pn_hash (uniq_in h') (mv key) = pn_hash (uniq_in h) key).
  { unfold pn_hash, PN_UNIQ, mv. destruct (PN_IS_PTR key) eqn:P; [|rewrite P; reflexivity].
    rewrite (ImgP key (Lkey eq_refl)). destruct (live_is_obj _ _ _ _ (Lkey eq_refl)) as (ok & Hok & Fk).
    destruct (p_obj _ _ _ _ _ _ Pv key ok (Lkey eq_refl) Hok) as (ok' & Hok' & _ & _ & Smk & _).
    unfold uniq_in. rewrite Hok, Hok', Smk; [reflexivity|lia|]. intros X. destruct (Wf key ok Hok) as (_ & Wk). pose proof (w_slots c ok Wk 0 X). lia. }
  assert (Inj : forall w, (PN_IS_PTR w = true -> live c h stack w) -> (mv w =? mv key) = (w =? key)).
  { intros w Lw. unfold mv. destruct (Z.eqb_spec w key) as [->|N]; [apply Z.eqb_refl|]. apply Z.eqb_neq.
    destruct (PN_IS_PTR w) eqn:Pw, (PN_IS_PTR key) eqn:Pk; auto.
    - intros E. apply N. apply (p_inj _ _ _ _ _ _ Pv); auto.
    - intros E. pose proof (ImgP w (Lw eq_refl)). congruence.
    - intros E. pose proof (ImgP key (Lkey eq_refl)). congruence. }
  set (t := decode o) in *. set (t' := decode o').
  assert (Tn : n_buckets t' = n_buckets t) by (unfold t, t', decode; cbn [n_buckets]; rewrite E1; reflexivity).
  assert (Tnb : n_buckets t = nb) by reflexivity.
  assert (Tf : fl t' = fl t).
  { unfold t, t', decode. cbn [fl]. rewrite E1. fold nb. apply map_ext_in. intros k Hk. apply In_zseq in Hk. apply Fl. lia. }
  assert (Tl : zlen (kv t') = zlen (kv t)).
  { unfold t, t', decode. cbn [kv]. rewrite E1. unfold zlen. rewrite !map_length. reflexivity. }
  assert (Gf : forall i, 0 <= i < nb -> gnth (fl t) i = Some (flag_of (fun g => word o (3 + g)) i)).
  { intros i Hi. unfold t, decode. cbn [fl]. fold nb. rewrite gnth_map_zseq by lia. rewrite Z.add_0_l. reflexivity. }
  assert (Gk : forall i, 0 <= i < nb -> gnth (kv t) i = Some (word o (3 + nflags nb + 2 * i), word o (3 + nflags nb + 2 * i + 1))).
  { intros i Hi. unfold t, decode. cbn [kv]. fold nb. rewrite gnth_map_zseq by lia. rewrite Z.add_0_l. reflexivity. }
  assert (Gk' : forall i, 0 <= i < nb -> gnth (kv t') i = Some (word o' (3 + nflags nb + 2 * i), word o' (3 + nflags nb + 2 * i + 1))).
  { intros i Hi. unfold t', decode. cbn [kv]. rewrite E1. fold nb. rewrite gnth_map_zseq by lia. rewrite Z.add_0_l. reflexivity. }
  assert (Rng : forall i f, gnth (fl t) i = Some f -> 0 <= i < nb).
  { intros i f G. apply gnth_Some in G. unfold t, decode in G. cbn [fl] in G. fold nb in G. unfold zlen in G. rewrite map_length in G.
    assert (L : forall n b, length (zseq b n) = n) by (induction n; intros; cbn; auto). rewrite L in G. lia. }
  assert (Sim : kh_get Z.eqb (pn_hash (uniq_in h')) t' (mv key) = kh_get Z.eqb (pn_hash (uniq_in h)) t key).
  { apply kh_get_sim; auto. intros i f e Gi Ei Ge. pose proof (Rng i f Gi) as Ri. rewrite Gf in Gi by auto. injection Gi as <-. rewrite Occ in Ei by auto.
    assert (Oc : occupied o i = true) by (destruct (occupied o i); auto; discriminate).
    rewrite Gk in Ge by auto. injection Ge as <-. rewrite Gk' by auto. eexists. split; [reflexivity|]. cbn [fst]. rewrite MvK by auto.
    apply Inj. apply LiveK; auto. }
  unfold table_at in *. rewrite Sim. destruct (kh_get Z.eqb (pn_hash (uniq_in h)) t key) as [k| |] eqn:Ek; try discriminate. cbn [bind] in *.
  rewrite Tn. destruct (Z.eqb_spec k (n_buckets t)) as [->|Nk]; cbn [negb] in *.
  - injection H as <-. exists PN_NIL. split; [reflexivity|]. split; [auto|]. split.
    + intros v Hn. exfalso. apply Hn. destruct (h PN_NIL) as [ox|] eqn:E; [|auto]. destruct (Wf _ _ E). discriminate.
    + intros ox Hx. destruct (Wf _ _ Hx). discriminate.
  - destruct (Z.eq_dec nb 0) as [Z0|NZ].
    { exfalso. unfold kh_get in Ek. rewrite Tnb, Z0 in Ek. cbn in Ek. injection Ek as <-. rewrite Tnb in Nk. congruence. }
    destruct (kh_get_occ (uniq_in h) t key k Ek Nk ltac:(rewrite Tnb; auto)) as (f & G & Ei). pose proof (Rng k f G) as Rk.
    rewrite Gf in G by auto. injection G as <-. rewrite Occ in Ei by auto.
    assert (Oc : occupied o k = true) by (destruct (occupied o k); auto; discriminate).
    rewrite (grd_Some _ _ _ (Gk k Rk)) in H. cbn [bind snd] in H. injection H as <-.
    rewrite (grd_Some _ _ _ (Gk' k Rk)). cbn [bind snd]. eexists. split; [reflexivity|]. apply (Slot k 1); auto.
Qed.

(** *** A concrete table in the nursery: one entry, the string at 8208 -> 7, in four buckets
    (the id of the string is 77, so its bucket is 1) *)
Definition mt_obj : obj := mkObj 96 [hd PN_TTABLE 3; pair32 4 1; pair32 1 3; 162; 0; 0; 8208; 7; 0; 0; 0; 0].
Definition mt_h1 : heap := hset hx_h 8208 ex_string.
Definition mt_h : heap := hset mt_h1 8224 mt_obj.
Lemma mt_content : content ex_c mt_h1 mt_obj.
Proof.
  assert (Sl : forall i, In i (traced ex_c mt_obj) -> i = 6 \/ i = 7).
  { intros i Hi. vm_compute in Hi. intuition lia. }
  constructor.
  - constructor; [vm_compute; discriminate| |reflexivity|intros _; vm_compute; split; [split; discriminate|auto]].
    intros i Hi. apply in_app_or in Hi. destruct Hi as [Hi|Hi]; [|vm_compute in Hi; destruct Hi]. apply Sl in Hi. change (zlen _) with 12. lia.
  - reflexivity.
  - intros i Hi. destruct (Sl i Hi) as [-> | ->].
    + exists 0%nat, 8208. split; [cbn; lia|]. eapply ch_obj; reflexivity.
    + exists 0%nat, 7. split; [cbn; lia|]. apply ch_imm. reflexivity.
  - intros i Hi. vm_compute in Hi. destruct Hi.
Qed.
Lemma mt_hist : history ex_c mt_h [].
Proof.
  apply hi_alloc; try reflexivity; [|apply mt_content].
  apply hi_alloc; [apply hx_start|reflexivity|reflexivity|reflexivity|reflexivity|apply ex_string_content].
Qed.
Lemma mt_cases a o : mt_h a = Some o -> a = 4096 \/ a = 5120 \/ a = 8208 \/ a = 8224.
Proof.
  unfold mt_h, mt_h1, hset. destruct (Z.eqb_spec a 8224); [auto|]. destruct (Z.eqb_spec a 8208); [auto|].
  intros H. destruct (hx_cases a o H) as [(-> & _)|(-> & _)]; auto.
Qed.
Example C52_example :
  table_at (uniq_in mt_h) (decode mt_obj) 8208 = Ok 7 /\
  exists r img o', terminates (fun fuel => minor ex_c fuel 4096 mt_h 65536 [8224] [] []) (Ok r) /\
    r_heap r (img 8224) = Some o' /\ table_at (uniq_in (r_heap r)) (decode o') (img 8208) = Ok 7.
Proof.
  assert (At : table_at (uniq_in mt_h) (decode mt_obj) 8208 = Ok 7) by (vm_compute; reflexivity). split; [exact At|].
  destruct (C39_collections_succeed_in_every_history ex_c mt_h [] 65536 131072 4096 [8224] [] mt_hist) as (r & img & T & Pv & Wh & _).
  - constructor.
    + intros b Hb. split; [|cbn; unfold ex_from; lia]. destruct (mt_h b) as [o|] eqn:H; [|auto]. apply mt_cases in H. lia.
    + lia.
    + exists [8208; 8224]. split; [repeat constructor; cbn; intuition lia|]. split; [|vm_compute; discriminate].
      intros a o F H _. destruct (mt_cases a o H) as [->|[->|[->| ->]]]; try discriminate; cbn; auto.
  - constructor; [exists ex_state; split; [split; reflexivity|reflexivity]| |intros v []].
    intros w [<-|[]] _. left. split; [reflexivity|]. exists 0%nat, 8224. split; [cbn; lia|]. eapply ch_obj; reflexivity.
  - pose proof (history_HI _ _ _ mt_hist) as HI. destruct HI as [Sn _ _ _ _].
    assert (Lt : live ex_c mt_h [8224] 8224).
    { apply (lv_stack _ _ _ 8224); [left; auto| |reflexivity]. exists 0%nat. eapply ch_obj; reflexivity. }
    assert (Ls : live ex_c mt_h [8224] 8208).
    { apply (lv_field _ _ _ 8224 mt_obj 6); try reflexivity; auto; [vm_compute; auto|]. exists 0%nat. eapply ch_obj; reflexivity. }
    destruct (p_obj _ _ _ _ _ _ Pv 8224 mt_obj Lt eq_refl) as (o' & Ho' & _).
    exists r, img, o'. split; auto. split; auto.
    destruct (C52_lookup_survives_a_collection ex_c mt_h (r_heap r) [8224] (r_stack r) img 8224 mt_obj o' 8208 7) as (r' & A & (B & _)); auto.
    + intros x ox Hx. destruct (sa_obj _ _ Sn x ox Hx) as (P1 & _ & W). auto.
    + intros x ox Hx. apply (Wh x ox Hx).
    + intros k Hk Oc _. assert (k = 1).
      { change (lo32 (word mt_obj 1)) with 4 in Hk. apply In_zseq in Hk. assert (k = 0 \/ k = 1 \/ k = 2 \/ k = 3) as [->|[->|[->| ->]]] by lia; vm_compute in Oc; congruence || lia. }
      subst k. exists ex_string. split; reflexivity.
    + intros _. exists ex_string. split; reflexivity.
    + rewrite B in A; [exact A|reflexivity].
Qed.

(** *** A key that grows is lost: its id is overwritten when it becomes a stub, and its
    copy has another address *)
Theorem C52_a_key_that_grows_is_lost_refuted :
  exists t, table_put (uniq_in c41_h) (fun _ => (0, 0)) table_empty 64 7 = Ok t /\ table_at (uniq_in c41_h) t 64 = Ok 7 /\
    grown c41_c c41_h 64 c41_h2 128 /\ leads c41_h2 64 128 /\
    table_at (uniq_in c41_h2) t 64 = Ok PN_NIL /\ table_at (uniq_in c41_h2) t 128 = Ok PN_NIL.
Proof.
  destruct C41_example as (G & _ & L).
  eexists. split; [vm_compute; reflexivity|]. split; [vm_compute; reflexivity|]. split; [exact G|]. split; [exact L|].
  split; vm_compute; reflexivity.
Qed.
