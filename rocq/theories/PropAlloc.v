(** C40 (allocation), C41 (reallocation), C42 (write barrier), C43 (copied sizes), and
    the room a collection needs (part of C39). *)
From Coq Require Import ZifyBool.
From Verif Require Import Base Arr WordModel WordProofs LayoutModel GcModel GcSpec GcProofs AllocModel.
Ltac Zify.zify_post_hook ::= Z.div_mod_to_equations.

Lemma blocksize_pos siz : 0 <= siz -> siz <= blocksize siz < siz + 17 /\ 16 <= blocksize siz /\ blocksize siz mod 8 = 0.
Proof.
  intros H. unfold blocksize. destruct ((0 <=? siz) && (siz <? 16)) eqn:E.
  - rewrite Z.quot_div_nonneg by lia. lia.
  - rewrite Z.quot_div_nonneg by lia. lia.
Qed.

(** ** C40 *)
(** one event between two collections: an allocation of siz bytes, or an entry for the
    store list *)
Inductive event := Alloc (siz : Z) | Store.
(** a run without a collection: [blocks] lists the (address, requested size) of all
    allocations, newest first *)
Inductive run : nursery -> list event -> nursery -> list (Z * Z) -> Prop :=
| r_nil M : run M [] M []
| r_alloc M es M1 bs M2 a siz : run M es M1 bs -> 0 <= siz -> must_collect M1 false siz = false -> bump M1 siz = (M2, a) ->
    run M (Alloc siz :: es) M2 ((a, siz) :: bs)
| r_store M es M1 bs M2 : run M es M1 bs -> push_store M1 = (M2, false) -> run M (Store :: es) M2 bs.
(** a nursery as a collection leaves it *)
Definition fresh (M : nursery) : Prop := n_lo M mod 8 = 0 /\ n_hi M mod 8 = 0 /\ n_cur M = n_lo M + 16 /\
  n_sptr M mod 8 = 0 /\ n_cur M <= n_sptr M /\ n_sptr M + 8 <= n_hi M.
Definition disjoint (a1 l1 a2 l2 : Z) : Prop := a1 + l1 <= a2 \/ a2 + l2 <= a1.

Lemma run_inv M : fresh M -> forall es M' bs, run M es M' bs ->
  n_lo M' = n_lo M /\ n_hi M' = n_hi M /\ n_cur M' mod 8 = 0 /\ n_sptr M' mod 8 = 0 /\ n_lo M + 16 <= n_cur M' /\ n_cur M' <= n_sptr M' /\ n_sptr M' <= n_sptr M /\
  (forall a siz, In (a, siz) bs -> 0 <= siz /\ a mod 8 = 0 /\ n_lo M + 16 <= a /\ a + blocksize siz <= n_cur M') /\
  (forall i j a1 s1 a2 s2, nth_error bs i = Some (a1, s1) -> nth_error bs j = Some (a2, s2) -> i <> j -> disjoint a1 (blocksize s1) a2 (blocksize s2)).
Proof.
  intros (F1 & F2 & F3 & F4 & F5 & F6) es M' bs R. induction R as [M|M es M1 bs M2 a siz R IH Hs Hc Hb|M es M1 bs M2 R IH Hp].
  - split; auto. split; auto. split; [lia|]. split; auto. split; [lia|]. split; [lia|]. split; [lia|]. split.
    + intros a siz [].
    + intros [|i] j a1 s1 a2 s2 H; discriminate.
  - destruct (IH F1 F2 F3 F4 F5 F6) as (L & H & C & S & Lo & CS & SS & B & D). clear IH.
    unfold bump in Hb. injection Hb as <- <-. cbn [n_lo n_hi n_cur n_sptr]. destruct (blocksize_pos siz Hs) as (P1 & P2 & P3).
    unfold must_collect in Hc. cbn [orb] in Hc. split; auto. split; auto. split; [lia|]. split; auto. split; [lia|]. split; [lia|]. split; [lia|].
    assert (New : forall a' s', In (a', s') bs -> disjoint (n_cur M1) (blocksize siz) a' (blocksize s')).
    { intros a' s' Hi. destruct (B a' s' Hi) as (_ & _ & _ & X). right. lia. }
    split.
    + intros a' s' [[= <- <-]|Hi]; [lia|]. destruct (B a' s' Hi) as (X1 & X2 & X3 & X4). lia.
    + intros [|i] [|j] a1 s1 a2 s2 H1 H2 N; cbn [nth_error] in *; try congruence.
      * injection H1 as <- <-. apply New. eapply nth_error_In; eauto.
      * injection H2 as <- <-. apply nth_error_In in H1. specialize (New _ _ H1). unfold disjoint in *. lia.
      * eapply D; eauto.
  - destruct (IH F1 F2 F3 F4 F5 F6) as (L & H & C & S & Lo & CS & SS & B & D). clear IH.
    unfold push_store in Hp. injection Hp as <- Hp. cbn [n_lo n_hi n_cur n_sptr] in *.
    split; auto. split; auto. split; [lia|]. split; [lia|]. split; [lia|]. split; [lia|]. split; [lia|]. split; auto.
Qed.
(** between two collections: every block is aligned, at least as large as requested,
    inside the nursery, apart from all other blocks, and below the store list *)
Theorem C40_blocks_are_aligned_disjoint_and_in_the_nursery :
  forall M es M' bs, fresh M -> run M es M' bs ->
  (forall a siz, In (a, siz) bs -> a mod 8 = 0 /\ siz <= blocksize siz /\ n_lo M <= a /\
     a + blocksize siz <= n_hi M /\ a + blocksize siz <= n_sptr M') /\
  (forall i j a1 s1 a2 s2, nth_error bs i = Some (a1, s1) -> nth_error bs j = Some (a2, s2) -> i <> j ->
     disjoint a1 (blocksize s1) a2 (blocksize s2)).
Proof.
  intros M es M' bs F R. destruct (run_inv M F es M' bs R) as (L & H & C & S & Lo & CS & SS & B & D). split; [|exact D].
  intros a siz Hi. destruct (B a siz Hi) as (X1 & X2 & X3 & X4). destruct (blocksize_pos siz X1). destruct F as (_ & _ & _ & _ & _ & F6). lia.
Qed.
Example C40_example : exists M' bs, fresh (mkN 0 4096 16 4056) /\
  run (mkN 0 4096 16 4056) [Store; Alloc 25; Alloc 1; Store; Alloc 100] M' bs /\ bs = [(136, 25); (120, 1); (16, 100)].
Proof.
  eexists. eexists. split; [unfold fresh; cbn; lia|]. split.
  - eapply r_store; [eapply r_alloc; [eapply r_alloc; [eapply r_store; [eapply r_alloc; [apply r_nil|..]|]|..]|..]|]; try reflexivity; try lia.
  - reflexivity.
Qed.

(** the block that caused a collection fits into the new nursery, when it is smaller than
    the limit and few entries of the store list are carried over *)
Lemma birth_suggest_range need oldlen : 0 <= oldlen -> POTION_MIN_BIRTH_SIZE <= birth_suggest need oldlen <= POTION_BIRTH_SIZE.
Proof.
  intros H. unfold birth_suggest, PN_ALIGN, POTION_MIN_BIRTH_SIZE, POTION_BIRTH_SIZE. cbv zeta.
  set (s := if need * 2 >? Z.quot oldlen 2 then need * 2 else Z.quot oldlen 2).
  destruct (262144 >? s) eqn:E1; [cbn; lia|]. destruct (16777216 <? s) eqn:E2; [cbn; lia|]. lia.
Qed.
Lemma region_fits newad z keeps b : 0 <= keeps <= 1000 -> b + 32 + 8192 <= z -> 16 <= b ->
  newad + 16 + b < n_sptr (new_region newad z keeps) /\ n_sptr (new_region newad z keeps) + 8 * (4 + keeps) < n_hi (new_region newad z keeps).
Proof.
  intros Hk Hz Hb. unfold new_region, PN_ALIGN, POTION_PAGESIZE. cbn [n_sptr n_hi].
  assert (A : z <= ((z - 1) / 4096 + 1) * 4096) by lia. set (x := ((z - 1) / 4096 + 1) * 4096) in *. clearbody x. lia.
Qed.
Lemma nursery_after (full : bool) M sz oldlen newad keeps : 0 <= sz < POTION_MAX_BIRTH_SIZE -> 0 <= oldlen ->
  exists z, sz + 8192 <= z /\ (if full then major_nursery else minor_nursery) M sz oldlen newad keeps = new_region newad z keeps.
Proof.
  intros Hs Ho. destruct full.
  - unfold major_nursery. destruct (sz <? 0) eqn:E1; [lia|]. cbv zeta. destruct (sz >=? POTION_MAX_BIRTH_SIZE) eqn:E2; [lia|].
    eexists. split; [|reflexivity]. pose proof (birth_suggest_range sz oldlen Ho) as S. unfold POTION_MIN_BIRTH_SIZE in S. lia.
  - unfold minor_nursery. destruct (sz <? 0) eqn:E1; [lia|]. cbv zeta. destruct (sz >=? POTION_MAX_BIRTH_SIZE) eqn:E2; [lia|].
    eexists. split; [|reflexivity]. unfold POTION_PAGESIZE. lia.
Qed.
Theorem C40_block_after_a_collection_is_in_the_new_nursery :
  forall M dirty full siz oldlen newad keeps M' a,
  must_collect M dirty siz = true -> 0 <= siz < POTION_MAX_BIRTH_SIZE - 64 -> 0 <= oldlen -> newad mod 4096 = 0 -> 0 <= keeps <= 1000 ->
  gc_alloc M dirty full siz oldlen newad keeps = (M', a) ->
  a = newad + 16 /\ a mod 8 = 0 /\ n_lo M' = newad /\ n_cur M' = a + blocksize siz /\ n_cur M' < n_sptr M' /\ n_sptr M' + 8 * (4 + keeps) < n_hi M'.
Proof.
  intros M dirty full siz oldlen newad keeps M' a Hm Hs Ho Hn Hk H. unfold gc_alloc in H. rewrite Hm in H.
  destruct (blocksize_pos siz ltac:(lia)) as (B1 & B2 & B3).
  destruct (nursery_after full M (blocksize siz + 32) oldlen newad keeps ltac:(lia) Ho) as (z & Hz & Ez). rewrite Ez in H.
  pose proof (region_fits newad z keeps (blocksize siz) Hk ltac:(lia) B2) as (R1 & R2).
  assert (Rl : n_lo (new_region newad z keeps) = newad) by reflexivity.
  assert (Rc : n_cur (new_region newad z keeps) = newad + 16) by reflexivity.
  set (N := new_region newad z keeps) in *. clearbody N. unfold bump in H. injection H as <- <-. cbn [n_lo n_hi n_cur n_sptr].
  rewrite Rl, Rc. split; [lia|]. split; [lia|]. lia.
Qed.
Example C40_after_example : exists M' a, gc_alloc (mkN 0 4096 16 4056) false false 5000 0 1048576 0 = (M', a) /\ a = 1048592.
Proof.
  exists (fst (gc_alloc (mkN 0 4096 16 4056) false false 5000 0 1048576 0)), (snd (gc_alloc (mkN 0 4096 16 4056) false false 5000 0 1048576 0)).
  split; [apply surjective_pairing|vm_compute; reflexivity].
Qed.
(** ... but not always: the collector refuses to provide a nursery for a request close
    to POTION_MAX_BIRTH_SIZE, and the block is taken beyond the end of the old one *)
Theorem C40_huge_request_runs_past_the_nursery_refuted :
  exists M siz newad M' a, fresh M /\ 0 <= siz < 2 ^ 31 /\ gc_alloc M false false siz 0 newad 0 = (M', a) /\ n_hi M' < a + siz.
Proof.
  exists (mkN 0 4096 16 4056), 268435456, 1048576, (fst (gc_alloc (mkN 0 4096 16 4056) false false 268435456 0 1048576 0)), (snd (gc_alloc (mkN 0 4096 16 4056) false false 268435456 0 1048576 0)). split; [unfold fresh; cbn; lia|]. split; [lia|].
  split; [apply surjective_pairing|]. vm_compute. reflexivity.
Qed.
(** a request of 2^31 bytes arrives as a negative int: the allocation pointer moves
    backwards, over the blocks already handed out *)
Theorem C40_request_of_2_gigabytes_moves_backwards_refuted :
  exists M siz M' a, fresh M /\ siz = s32 (2 ^ 31) /\ gc_alloc M false false siz 0 0 0 = (M', a) /\ n_cur M' < n_lo M'.
Proof.
  exists (mkN 0 4096 16 4056), (s32 (2 ^ 31)), (fst (gc_alloc (mkN 0 4096 16 4056) false false (s32 (2 ^ 31)) 0 0 0)), (snd (gc_alloc (mkN 0 4096 16 4056) false false (s32 (2 ^ 31)) 0 0 0)). split; [unfold fresh; cbn; lia|]. split; [auto|].
  split; [apply surjective_pairing|]. vm_compute. reflexivity.
Qed.

(** ** C39: the space objects are copied to has room.  Objects in a region are blocks
    one after the other; a minor collection only runs when the free part of the old
    region is as large as the nursery. *)
Inductive packed (h : heap) : Z -> Z -> list Z -> Prop :=
| pk_nil lo hi : lo <= hi -> packed h lo hi []
| pk_obj lo hi a o l : lo <= a -> h a = Some o -> packed h (a + o_size o) hi l -> packed h lo hi (a :: l).
Lemma packed_room c h lo hi l : (forall a o, In a l -> h a = Some o -> type_size c o <= o_size o) ->
  packed h lo hi l -> szs c h l <= hi - lo.
Proof.
  intros W P. induction P as [lo hi H|lo hi a o l H Ho P IH]; cbn [szs]; [lia|].
  unfold tsz at 1. rewrite Ho. pose proof (W a o (or_introl eq_refl) Ho).
  assert (szs c h l <= hi - (a + o_size o)) by (apply IH; intros; eapply W; eauto; right; auto). lia.
Qed.
Theorem C39_minor_collection_has_room :
  forall c h birth_lo birth_hi l sz oldlen old_cur old_hi, 0 <= sz -> 0 <= oldlen ->
  (forall a o, In a l -> h a = Some o -> type_size c o <= o_size o) ->
  packed h birth_lo birth_hi l ->
  need_full sz oldlen (old_hi - old_cur) (birth_hi - birth_lo) = false ->
  old_cur + szs c h l <= old_hi.
Proof.
  intros c h lo hi l sz oldlen cur ohi Hs Ho W P N. pose proof (packed_room c h lo hi l W P) as R.
  unfold need_full in N. pose proof (birth_suggest_range sz oldlen Ho) as S. unfold POTION_MIN_BIRTH_SIZE in S. lia.
Qed.
Example C39_room_example : exists l, packed (fun a => if a =? 16 then Some (mkObj 16 [PN_TNUMBER; 0]) else if a =? 40 then Some (mkObj 24 [PN_TTUPLE; 1 + 4294967296; 0]) else None) 0 4096 l
  /\ l = [16; 40] /\ need_full 32 0 600000 4096 = false.
Proof.
  eexists. split; [|split; [reflexivity|reflexivity]].
  eapply pk_obj; [lia|reflexivity|]. cbn [o_size]. eapply pk_obj; [lia|reflexivity|]. cbn [o_size]. constructor. lia.
Qed.

(** ** C41 *)
(** one growth moves an object to a fresh block: everything that led to it leads to the
    new block, which starts with its words; all other references are as before *)
Lemma chain_grow h a dst o n1 : h a = Some o -> is_fwd o = false -> h dst = None -> a <> dst -> PN_IS_PTR a = true -> PN_IS_PTR dst = true ->
  is_fwd n1 = false -> forall st, is_fwd st = true -> word st 1 = dst ->
  forall n w v, chain h n w v -> exists m, chain (hset (hset h dst n1) a st) m w (if v =? a then dst else v).
Proof.
  intros Ha Hf Hd N Pa Pd Fn st Fs Ws n w v Ch.
  assert (Other : forall x, x <> a -> x <> dst -> hset (hset h dst n1) a st x = h x) by (intros; rewrite !hset_other; auto).
  assert (Adst : hset (hset h dst n1) a st dst = Some n1) by (rewrite hset_other by auto; apply hset_same).
  induction Ch as [v P|v ov P Hv F|n v ov r P Hv F Ch (m & IH)].
  - destruct (Z.eqb_spec v a); [congruence|]. exists 0%nat. apply ch_imm. auto.
  - destruct (Z.eqb_spec v a) as [->|Na].
    + exists 1%nat. apply (ch_stub _ 0 a st dst); auto; [apply hset_same|]. rewrite Ws. eapply ch_obj; eauto.
    + exists 0%nat. apply (ch_obj _ v ov); auto. rewrite Other; auto. congruence.
  - assert (v <> a) by congruence. exists (S m). apply (ch_stub _ m v ov); auto. rewrite Other; auto. congruence.
Qed.
Theorem C41_growth_is_transparent :
  forall c h a o dst sz junk h' b,
  h a = Some o -> is_fwd o = false -> wfobj c o -> PN_IS_PTR a = true -> PN_IS_PTR dst = true -> h dst = None ->
  gc_realloc c h a dst sz junk = Ok (h', b) ->
  (* every old reference to it reaches the object at b *)
  (forall w, leads h w a -> leads h' w b) /\
  (* whose first words are the old ones *)
  (exists o', h' b = Some o' /\ is_fwd o' = false /\ zlen (o_words o) <= zlen (o_words o') /\
     forall i, 0 <= i < zlen (o_words o) -> word o' i = word o i) /\
  (* and it has the requested size *)
  (forall o', h' b = Some o' -> 0 <= sz -> sz <= o_size o') /\
  (* other references and objects are not affected *)
  (forall w v, leads h w v -> v <> a -> leads h' w v) /\
  (forall x ox, h x = Some ox -> x <> a -> h' x = Some ox).
Proof.
  intros c h a o dst sz junk h' b Ha Hf W Pa Pd Hd H. assert (N : a <> dst) by congruence.
  unfold gc_realloc in H. rewrite Ha in H. destruct (w_size c o W Hf) as ((S1 & S2) & S3 & S4). pose proof (w_len c o W) as S5.
  destruct (type_size c o >=? sz) eqn:E.
  { injection H as <- <-. split; auto. split; [exists o; split; auto; split; auto; split; [lia|auto]|]. split; [intros o' Ho' _; replace o' with o by congruence; lia|]. split; auto. }
  rewrite S4 in H. destruct (zlen (o_words o) >? zlen (o_words o)) eqn:E2; [lia|].
  rewrite wr_ok in H by lia. cbn [bind] in H. rewrite wr_ok in H by (rewrite zlen_upd by lia; lia). cbn [bind] in H. injection H as <- <-.
  assert (Tk : ztake (zlen (o_words o)) (o_words o) = o_words o) by (unfold ztake, zlen; rewrite Nat2Z.id; apply firstn_all).
  rewrite Tk. set (n1 := mkObj (blocksize sz) (o_words o ++ junk)). set (st := mkObj (o_size o) _).
  assert (W0 : word n1 0 = word o 0) by (unfold word, n1; cbn [o_words]; apply znth_app1; lia).
  assert (Fn : is_fwd n1 = false) by (unfold is_fwd, o_vt in *; rewrite W0; auto).
  assert (Fs : is_fwd st = true).
  { unfold is_fwd, o_vt, word, st. cbn [o_words]. rewrite znth_upd_other by (rewrite ?zlen_upd by lia; lia). rewrite znth_upd_same by lia.
    unfold lo32, POTION_FWD. rewrite Z.mod_add by lia. reflexivity. }
  assert (Ws : word st 1 = dst) by (unfold word, st; cbn [o_words]; apply znth_upd_same; rewrite zlen_upd by lia; lia).
  pose proof (chain_grow h a dst o n1 Ha Hf Hd N Pa Pd Fn st Fs Ws) as G.
  split; [|split; [|split; [|split]]].
  - intros w (n & Ch). destruct (G n w a Ch) as (m & Ch'). rewrite Z.eqb_refl in Ch'. exists m. auto.
  - exists n1. split; [rewrite hset_other by auto; apply hset_same|]. split; auto.
    split; [unfold n1; cbn [o_words]; rewrite zlen_app; pose proof (zlen_nonneg junk); lia|].
    intros i Hi. unfold word, n1. cbn [o_words]. apply znth_app1. lia.
  - intros o' Ho' Hs. rewrite hset_other, hset_same in Ho' by auto. injection Ho' as <-. cbn [o_size].
    apply (blocksize_pos sz Hs).
  - intros w v (n & Ch) Nv. destruct (G n w v Ch) as (m & Ch'). destruct (Z.eqb_spec v a); [congruence|]. exists m. auto.
  - intros x ox Hx Nx. rewrite !hset_other; auto. congruence.
Qed.
(** any number of growths of one object: [grown h a l h' b]: starting at a, each growth
    takes the object where it is now to a fresh address *)
Inductive grown (c : cfg) : heap -> Z -> heap -> Z -> Prop :=
| gr_nil h a : grown c h a h a
| gr_step h a h1 b h2 d dst sz junk : grown c h a h1 b ->
    (forall o, h1 b = Some o -> wfobj c o) -> PN_IS_PTR b = true -> PN_IS_PTR dst = true -> h1 dst = None ->
    gc_realloc c h1 b dst sz junk = Ok (h2, d) -> grown c h a h2 d.
Theorem C41_any_number_of_growths :
  forall c h a o h' b, grown c h a h' b -> h a = Some o -> is_fwd o = false ->
  (forall w, leads h w a -> leads h' w b) /\
  exists o', h' b = Some o' /\ is_fwd o' = false /\ zlen (o_words o) <= zlen (o_words o') /\
    forall i, 0 <= i < zlen (o_words o) -> word o' i = word o i.
Proof.
  intros c h a o h' b G Ha Hf. induction G as [h a|h a h1 b h2 d dst sz junk G IH W Pb Pd Hd H].
  - split; auto. exists o. split; auto. split; auto. split; [lia|auto].
  - destruct (IH Ha) as (L & o1 & H1 & F1 & Z1 & W1).
    destruct (C41_growth_is_transparent c h1 b o1 dst sz junk h2 d H1 F1 (W o1 H1) Pb Pd Hd H) as (L2 & (o2 & H2 & F2 & Z2 & W2) & _).
    split; [auto|]. exists o2. split; auto. split; auto.
    split; [lia|]. intros i Hi. rewrite W2 by lia. auto.
Qed.
(** a tuple of two elements grows to four, then to eight *)
Definition c41_c : cfg := mkC (fun _ => false) (fun _ => true) (fun _ => 0) 24 (fun _ => false) 10.
Definition c41_h : heap := fun a => if a =? 64 then Some (mkObj 32 [hd PN_TTUPLE 5; pair32 2 2; 3; 5]) else None.
Definition c41_h2 : heap :=
  hset (hset c41_h 128 (mkObj 48 [hd PN_TTUPLE 5; pair32 2 2; 3; 5; 0; 0])) 64 (mkObj 32 [POTION_FWD + 32 * 4294967296; 128; 3; 5]).
Example C41_example : grown c41_c c41_h 64 c41_h2 128 /\ leads c41_h 64 64 /\ leads c41_h2 64 128.
Proof.
  assert (W : wfobj c41_c (mkObj 32 [hd PN_TTUPLE 5; pair32 2 2; 3; 5])).
  { constructor; [vm_compute; discriminate| |reflexivity|intros _; vm_compute; split; [split; discriminate|auto]].
    intros i Hi. vm_compute in Hi. change (zlen _) with 4. intuition lia. }
  split; [|split].
  - apply (gr_step c41_c c41_h 64 c41_h 64 c41_h2 128 128 48 [0; 0]); try reflexivity; [apply gr_nil|].
    intros o [= <-]. exact W.
  - exists 0%nat. eapply ch_obj; reflexivity.
  - exists 1%nat. eapply ch_stub; try reflexivity. eapply ch_obj; reflexivity.
Qed.

(** ** C43: the size the collector copies *)
Definition starts (o : obj) (ws : list Z) : Prop := forall i, 0 <= i < zlen ws -> word o i = znth ws i.
Lemma lo32_pair a b : 0 <= a < 4294967296 -> lo32 (a + b * 4294967296) = a.
Proof. intros H. unfold lo32. rewrite Z.mod_add by lia. apply Z.mod_small. auto. Qed.
Lemma hi32_pair a b : 0 <= a < 4294967296 -> 0 <= b < 4294967296 -> hi32 (a + b * 4294967296) = b.
Proof. intros H1 H2. unfold hi32. rewrite Z.div_add by lia. rewrite Z.div_small by lia. apply Z.mod_small. lia. Qed.
Lemma finish_blocksize r : 0 <= r -> finish_size r = blocksize r.
Proof.
  intros H. unfold finish_size, blocksize, PN_ALIGN. destruct (r <? 16) eqn:E.
  - replace (0 <=? r) with true by lia. reflexivity.
  - rewrite andb_false_r. cbv zeta. rewrite Z.quot_div_nonneg by lia. lia.
Qed.
Lemma type_size_kind c o vt k : o_vt o = vt -> PN_TNIL <= vt <= PN_TUSER -> is_copied o || is_fwd o = false -> kind_size o = k -> 0 <= k ->
  type_size c o = blocksize k.
Proof.
  intros V R F K H. unfold type_size. rewrite F, V.
  destruct (vt <? PN_TNIL) eqn:E1; [lia|]. destruct (vt >? PN_TUSER) eqn:E2; [lia|]. rewrite K. apply finish_blocksize. auto.
Qed.
Ltac decide_eqbs := repeat match goal with |- context [?a =? ?b] =>
  is_const a; is_const b; let r := eval vm_compute in (a =? b) in first [constr_eq r true | constr_eq r false]; change (a =? b) with r end; cbv beta iota zeta.
Theorem C43_copied_size_is_the_block :
  forall c req used ws o, born req used ws -> used < 2147483648 -> starts o ws ->
  type_size c o = blocksize req /\ used <= type_size c o.
Proof.
  assert (K0 : forall m n, 0 <= kh_size m n) by (intros; unfold kh_size, u32; apply Z.mod_pos_bound; reflexivity).
  assert (Main : forall c req used ws o vt u, starts o ws -> 0 < zlen ws -> znth ws 0 = hd vt u -> PN_TNIL <= vt <= PN_TUSER ->
    (o_vt o = vt -> kind_size o = req \/ (kind_size o = 0 /\ req = 16)) -> 0 <= req -> used <= req -> type_size c o = blocksize req /\ used <= type_size c o).
  { intros c req used ws o vt u St L W0 R K Hr Hu. assert (V : o_vt o = vt).
    { unfold o_vt. rewrite (St 0), W0 by lia. unfold hd. apply lo32_pair. unfold PN_TUSER, PN_TNIL in R. lia. }
    assert (F : is_copied o || is_fwd o = false).
    { unfold is_copied, is_fwd, POTION_COPIED, POTION_FWD. rewrite V. unfold PN_TUSER, PN_TNIL in R. lia. }
    destruct (K V) as [K1|(K1 & ->)].
    - rewrite (type_size_kind c o vt req V R F K1 Hr). split; auto. pose proof (blocksize_pos req Hr). lia.
    - rewrite (type_size_kind c o vt 0 V R F K1 ltac:(lia)). split; [reflexivity|]. pose proof (blocksize_pos 0 ltac:(lia)). lia. }
  assert (Ln : forall (l : list Z), 0 <= zlen l) by (intros; apply zlen_nonneg).
  intros c req used ws o B Hu St.
  assert (Wi : forall i w, 0 <= i < zlen ws -> znth ws i = w -> word o i = w) by (intros i w Hi <-; auto).
  destruct B; (eapply Main; [exact St|reflexivity|reflexivity|vm_compute; split; discriminate| |try pose proof (K0 true n); try pose proof (K0 false n); lia|try pose proof (K0 true n); try pose proof (K0 false n); lia]);
    intros V; unfold kind_size; rewrite V; decide_eqbs; try (left; reflexivity); try (right; split; reflexivity); left.
  - rewrite (Wi 1 (pair32 len x)) by (reflexivity || (vm_compute; split; [discriminate|reflexivity])). unfold pair32. rewrite lo32_pair by lia. lia.
  - rewrite (Wi 4 (pair32 e 0)) by (reflexivity || (vm_compute; split; [discriminate|reflexivity])). unfold pair32. rewrite lo32_pair by lia. lia.
  - rewrite (Wi 1 (pair32 n n)) by (reflexivity || (vm_compute; split; [discriminate|reflexivity])). unfold pair32. rewrite hi32_pair by lia. lia.
  - rewrite (Wi 1 (pair32 len siz)) by (reflexivity || (vm_compute; split; [discriminate|reflexivity])). unfold pair32. rewrite hi32_pair by lia. lia.
  - rewrite (Wi 1 (pair32 0 s)) by (reflexivity || (vm_compute; split; [discriminate|reflexivity])). unfold pair32. rewrite lo32_pair by lia. reflexivity.
  - rewrite (Wi 1 (pair32 n s)) by (reflexivity || (vm_compute; split; [discriminate|reflexivity])). unfold pair32. rewrite lo32_pair by lia.
    destruct (Z.eqb_spec n 0); [lia|reflexivity].
  - rewrite (Wi 1 (pair32 0 s)) by (reflexivity || (vm_compute; split; [discriminate|reflexivity])). unfold pair32. rewrite lo32_pair by lia. reflexivity.
  - rewrite (Wi 1 (pair32 n s)) by (reflexivity || (vm_compute; split; [discriminate|reflexivity])). unfold pair32. rewrite lo32_pair by lia.
    destruct (Z.eqb_spec n 0); [lia|reflexivity].
  - rewrite (Wi 1 (pair32 len siz)) by (reflexivity || (vm_compute; split; [discriminate|reflexivity])). unfold pair32. rewrite hi32_pair by lia. lia.
  - rewrite (Wi 1 (pair32 siz x)) by (reflexivity || (vm_compute; split; [discriminate|reflexivity])). unfold pair32. rewrite lo32_pair by lia. lia.
Qed.
(** a concrete object of each shape of count: a tuple of three, a string of five bytes *)
Example C43_example : type_size c41_c (mkObj 40 [hd PN_TTUPLE 5; pair32 3 3; 1; 3; 5]) = 40 /\
  type_size c41_c (mkObj 24 [hd PN_TSTRING 7; pair32 5 0; 0]) = 24.
Proof. vm_compute. auto. Qed.

(** *** and the kinds for which it is too small *)
(** an error object loses its message, line, column and excerpt when it is moved *)
Theorem C43_error_objects_are_cut_refuted :
  forall c u msg line chr excerpt parent, 24 <= c_ntypes c ->
  type_size c (mkObj (blocksize error_request) (error_words u msg line chr excerpt parent)) = 16 /\ error_request = 48.
Proof.
  intros. split; [|reflexivity]. assert (V : o_vt (mkObj (blocksize error_request) (error_words u msg line chr excerpt parent)) = PN_TERROR).
  { unfold o_vt, word, error_words. cbn [o_words znth nth Z.to_nat]. unfold hd. apply lo32_pair. vm_compute. split; [discriminate|reflexivity]. }
  rewrite (type_size_kind c _ PN_TERROR 0 V); [reflexivity|vm_compute; split; discriminate| | |lia].
  - unfold is_copied, is_fwd. rewrite V. reflexivity.
  - unfold kind_size. rewrite V. reflexivity.
Qed.
(** a continuation loses the end of the saved stack *)
Theorem C43_continuations_are_cut_refuted :
  forall c u n, 0 < n < 100000000 -> 24 <= c_ntypes c ->
  type_size c (mkObj (blocksize (cont_request n)) (cont_head u n)) < cont_used n.
Proof.
  intros c u n Hn _. assert (V : o_vt (mkObj (blocksize (cont_request n)) (cont_head u n)) = PN_TCONT).
  { unfold o_vt, word, cont_head. cbn [o_words znth nth Z.to_nat]. unfold hd. apply lo32_pair. vm_compute. split; [discriminate|reflexivity]. }
  rewrite (type_size_kind c _ PN_TCONT (16 + (n + 3) * 8) V).
  - pose proof (blocksize_pos (16 + (n + 3) * 8) ltac:(lia)) as (_ & _ & _). unfold cont_used, blocksize.
    replace ((0 <=? 16 + (n + 3) * 8) && (16 + (n + 3) * 8 <? 16)) with false by lia. cbv zeta. rewrite Z.quot_div_nonneg by lia. lia.
  - vm_compute. split; discriminate.
  - unfold is_copied, is_fwd. rewrite V. reflexivity.
  - unfold kind_size. rewrite V. decide_eqbs. unfold word, cont_head. cbn [o_words]. change (znth _ 1) with (pair32 (n + 3) 0).
    unfold pair32. rewrite lo32_pair by lia. reflexivity.
  - lia.
Qed.
(** an object of potion_allocate is read far past its end *)
Theorem C43_allocate_is_overread_refuted :
  forall c u n, 64 <= n < 100000000 -> 24 <= c_ntypes c ->
  let o := mkObj (blocksize (allocate_request (PN_NUM n))) (allocate_head u (PN_NUM n)) in
  o_size o + n - 32 < type_size c o.
Proof.
  intros c u n Hn _ o. assert (E : PN_NUM n = 2 * n + 1) by (rewrite PN_NUM_eq; apply Z.mod_small; unfold two64; lia).
  assert (Sz : o_size o = blocksize (12 + n)). { unfold o, allocate_request. cbn [o_size]. rewrite PN_INT_NUM; [reflexivity|]. apply repb_spec. unfold two62. lia. }
  assert (V : o_vt o = PN_TUSER).
  { unfold o, o_vt, word, allocate_head. cbn [o_words znth nth Z.to_nat]. unfold hd. apply lo32_pair. vm_compute. split; [discriminate|reflexivity]. }
  rewrite Sz, (type_size_kind c _ PN_TUSER (12 + (2 * n + 1)) V).
  - pose proof (blocksize_pos (12 + n) ltac:(lia)). pose proof (blocksize_pos (12 + (2 * n + 1)) ltac:(lia)). lia.
  - vm_compute. split; discriminate.
  - unfold is_copied, is_fwd. rewrite V. reflexivity.
  - unfold kind_size. rewrite V. decide_eqbs. unfold o, word, allocate_head. cbn [o_words]. change (znth _ 1) with (pair32 (u32 (PN_NUM n)) 0).
    unfold pair32. rewrite E. unfold u32, two32. rewrite Z.mod_small by lia. rewrite lo32_pair by lia. reflexivity.
  - lia.
Qed.
(** an instance of a class that gets 13 more fields later is read past its end *)
Theorem C43_instances_of_a_grown_class_are_overread_refuted :
  forall c u vt ivlen, PN_TUSER < vt < PN_TNIL + c_ntypes c -> vt < 3000000 -> 0 <= ivlen -> ivlen + 12 <= c_ivlen c vt < 100000000 ->
  let o := mkObj (blocksize (object_request ivlen)) [hd vt u] in o_size o < type_size c o.
Proof.
  intros c u vt ivlen Hv Hs Hi Hc o. unfold PN_TUSER, PN_TNIL in Hv. assert (V : o_vt o = vt).
  { unfold o, o_vt, word. cbn [o_words znth nth Z.to_nat]. unfold hd. apply lo32_pair. lia. }
  unfold type_size, is_copied, is_fwd, POTION_COPIED, POTION_FWD, PN_TUSER, PN_TNIL. rewrite V.
  destruct ((vt =? 4294967295) || (vt =? 4294967294)) eqn:E1; [lia|]. destruct (vt <? 2424832) eqn:E2; [lia|].
  destruct (vt >? 23 + 2424832) eqn:E3; [|lia]. destruct (vt <? 2424832 + c_ntypes c) eqn:E4; [|lia].
  rewrite finish_blocksize by lia. unfold o. cbn [o_size]. unfold object_request.
  assert (M : forall a b, 0 <= a -> a + 8 <= b -> blocksize a < blocksize b \/ b < 17).
  { intros a b Ha Hb. unfold blocksize. destruct ((0 <=? a) && (a <? 16)) eqn:X, ((0 <=? b) && (b <? 16)) eqn:Y; cbv zeta; rewrite ?Z.quot_div_nonneg by lia; lia. }
  destruct (M (8 + (96 - 8 + ivlen * 8)) (8 + c_ivlen c vt * 8)); lia.
Qed.
(** it is copied whole while the class stays as it was *)
Theorem C43_instances :
  forall c u vt ivlen ws, PN_TUSER < vt < PN_TNIL + c_ntypes c -> vt < 3000000 -> c_ivlen c vt = ivlen -> 0 <= ivlen ->
  let o := mkObj (blocksize (object_request ivlen)) (hd vt u :: ws) in 8 + 8 * ivlen <= type_size c o <= o_size o.
Proof.
  intros c u vt ivlen ws Hv Hs Hc Hi o. unfold PN_TUSER, PN_TNIL in Hv. assert (V : o_vt o = vt).
  { unfold o, o_vt, word. cbn [o_words znth nth Z.to_nat]. unfold hd. apply lo32_pair. lia. }
  unfold type_size, is_copied, is_fwd, POTION_COPIED, POTION_FWD, PN_TUSER, PN_TNIL. rewrite V.
  destruct ((vt =? 4294967295) || (vt =? 4294967294)) eqn:E1; [lia|]. destruct (vt <? 2424832) eqn:E2; [lia|].
  destruct (vt >? 23 + 2424832) eqn:E3; [|lia]. destruct (vt <? 2424832 + c_ntypes c) eqn:E4; [|lia].
  rewrite finish_blocksize by lia. unfold o. cbn [o_size]. unfold object_request. rewrite Hc.
  pose proof (blocksize_pos (8 + ivlen * 8) ltac:(lia)). pose proof (blocksize_pos (8 + (96 - 8 + ivlen * 8)) ltac:(lia)). lia.
Qed.
