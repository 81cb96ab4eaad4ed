(** Properties C30 (byte buffers grow safely), C31 (clone), C54 (bounds-checked
    access to byte buffers). *)
From Coq Require Import ZifyBool.
From Verif Require Import Base Arr WordModel WordProofs BytesModel.
Ltac Zify.zify_post_hook ::= Z.div_mod_to_equations.

Definition isfwd (o : bobj) : bool := match o with OFwd _ => true | _ => false end.
Inductive resolves (h : bheap) : Z -> Z -> Prop :=
| R0 a o : obj h a = Some o -> isfwd o = false -> resolves h a a
| RS a p b : obj h a = Some (OFwd p) -> resolves h p b -> resolves h a b.

Definition okobj (o : bobj) : Prop :=
  match o with
  | OStr _ => True
  | OBytes len siz mem => 0 <= len < siz /\ siz mod 32 = 16 /\ siz < two32 /\ zlen mem = siz
  | OFwd _ => True
  end.
Record bwf (h : bheap) : Prop := {
  bw_next : 0 < bnext h;
  bw_rng : forall a o, obj h a = Some o -> 0 < a < bnext h;
  bw_fwd : forall a p, obj h a = Some (OFwd p) -> a < p /\ obj h p <> None;
  bw_obj : forall a o, obj h a = Some o -> okobj o }.

Lemma resolves_obj h a b : resolves h a b -> exists o, obj h b = Some o /\ isfwd o = false.
Proof. induction 1; eauto. Qed.
Lemma resolves_start h a b : resolves h a b -> obj h a <> None.
Proof. destruct 1; congruence. Qed.
Lemma resolves_fun h a b c : resolves h a b -> resolves h a c -> b = c.
Proof.
  intros H. revert c. induction H as [a o E F|a p b E R IH]; intros c K; inversion K as [a' o' E' F'|a' p' b' E' R']; subst.
  - reflexivity.
  - rewrite E in E'. injection E' as ->. discriminate.
  - rewrite E in E'. injection E' as <-. discriminate.
  - rewrite E in E'. injection E' as <-. apply IH, R'.
Qed.
Lemma fwd_loop_ok h : bwf h -> forall n a b, resolves h a b -> (Z.to_nat (bnext h - a) <= n)%nat ->
  bfwd_loop (S n) h a = Ok b.
Proof.
  intros W. induction n as [n IH] using lt_wf_ind. intros a b R L. destruct R as [a o E F|a p b E R].
  - cbn. rewrite E. destruct o; [reflexivity|reflexivity|discriminate].
  - cbn. rewrite E. destruct (bw_fwd _ W _ _ E) as [A N].
    pose proof (bw_rng _ W _ _ E). pose proof (bw_rng _ W p) as RP.
    destruct (obj h p) as [op|] eqn:EP; [|congruence]. specialize (RP op eq_refl).
    destruct n as [|n]; [lia|]. apply (IH n); [lia|exact R|lia].
Qed.
Lemma bfwd_ok h a b : bwf h -> resolves h a b -> bfwd h a = Ok b.
Proof.
  intros W R. unfold bfwd. apply fwd_loop_ok; [exact W|exact R|].
  pose proof (resolves_start _ _ _ R) as N. destruct (obj h a) as [o|] eqn:E; [|congruence].
  pose proof (bw_rng _ W _ _ E). lia.
Qed.

(** what a step may change: only the object at s, which afterwards is found at s' *)
Record frame (h h' : bheap) (s s' : Z) : Prop := {
  f_keep : forall q o, q <> s -> obj h q = Some o -> obj h' q = Some o;
  f_old : exists o, obj h s = Some o /\ isfwd o = false;
  f_new : resolves h' s s';
  f_fresh : s' = s \/ obj h s' = None }.
Lemma frame_resolves h h' s s' a b : frame h h' s s' -> resolves h a b ->
  resolves h' a (if b =? s then s' else b).
Proof.
  intros F R. induction R as [a o E N|a p b E R IH].
  - destruct (Z.eqb_spec a s) as [->|D]; [apply F|]. apply (R0 _ _ o); [apply F; assumption|exact N].
  - destruct (Z.eq_dec a s) as [->|D].
    + destruct (f_old _ _ _ _ F) as (o & E' & N). rewrite E in E'. injection E' as <-. discriminate.
    + apply (RS _ _ p); [apply F; assumption|exact IH].
Qed.

(** ** writing *)
Lemma upd_app l1 x l2 y : upd (l1 ++ x :: l2) (zlen l1) y = l1 ++ y :: l2.
Proof.
  unfold upd, zlen. rewrite Nat2Z.id. rewrite firstn_app, firstn_all, Nat.sub_diag. cbn [firstn]. rewrite app_nil_r. f_equal. f_equal.
  rewrite skipn_app. rewrite skipn_all2 by lia. replace (S (length l1) - length l1)%nat with 1%nat by lia. reflexivity.
Qed.
Lemma blit_ok src : forall pre old post, length old = length src ->
  blit (pre ++ old ++ post) (zlen pre) src = Ok (pre ++ src ++ post).
Proof.
  induction src as [|b src IH]; intros pre old post L; [destruct old; [reflexivity|discriminate]|].
  destruct old as [|o old]; [discriminate|]. cbn [blit app].
  rewrite wr_ok by (rewrite zlen_app, zlen_cons; pose proof (zlen_nonneg pre); pose proof (zlen_nonneg (old ++ post)); lia).
  cbn [bind]. rewrite upd_app.
  replace (pre ++ b :: old ++ post) with ((pre ++ [b]) ++ old ++ post) by (rewrite <- app_assoc; reflexivity).
  replace (zlen pre + 1) with (zlen (pre ++ [b])) by (rewrite zlen_app; reflexivity).
  rewrite IH by (cbn in L; lia). f_equal. rewrite <- app_assoc. reflexivity.
Qed.
Lemma split3 (mem : list Z) i n : 0 <= i -> 0 <= n -> i + n <= zlen mem ->
  exists post, mem = ztake i mem ++ zsub mem i n ++ post.
Proof.
  intros I N L. exists (skipn (Z.to_nat n) (skipn (Z.to_nat i) mem)). unfold ztake, zsub. rewrite !firstn_skipn. reflexivity.
Qed.
Lemma blit_at mem i src : 0 <= i -> i + zlen src <= zlen mem -> exists mem', blit mem i src = Ok mem' /\
  zlen mem' = zlen mem /\ ztake (i + zlen src) mem' = ztake i mem ++ src /\
  (forall k, i + zlen src <= k -> znth mem' k = znth mem k).
Proof.
  intros I L. destruct (split3 mem i (zlen src) I (zlen_nonneg src) L) as (post & E).
  set (pre := ztake i mem) in *. set (old := zsub mem i (zlen src)) in *.
  assert (LP : zlen pre = i) by (apply zlen_ztake; pose proof (zlen_nonneg src); lia).
  assert (LO : zlen old = zlen src) by (apply zlen_zsub; pose proof (zlen_nonneg src); lia).
  exists (pre ++ src ++ post). split; [|split; [|split]].
  - rewrite E. rewrite <- LP. apply blit_ok. unfold zlen in LO. lia.
  - rewrite E, !zlen_app. lia.
  - unfold ztake at 1. rewrite app_assoc. rewrite firstn_app.
    replace (Z.to_nat (i + zlen src) - length (pre ++ src))%nat with 0%nat by (rewrite app_length; unfold zlen in *; lia).
    cbn [firstn]. rewrite app_nil_r. apply firstn_all2. rewrite app_length. unfold zlen in *. lia.
  - intros k Hk. rewrite E at 1. rewrite !znth_app2 by (rewrite ?LP, ?LO; pose proof (zlen_nonneg src); lia).
    rewrite LO. reflexivity.
Qed.

Definition junkok (junk : Z -> list Z) : Prop := forall n, 0 <= n -> zlen (junk n) = n.
Definition lim : Z := 2147483648.

(** the growth rule always leaves room for the text and its terminator *)
Lemma grown_ok n : 0 <= n < lim -> let siz := BYTES_ALIGN (grown n) in n + 1 <= siz /\ siz mod 32 = 16 /\ siz < two32.
Proof. unfold lim. intros H. unfold BYTES_ALIGN, grown, PN_ALIGN, u32, u64, two32, two64. lia. Qed.
Lemma align_ok n : 0 <= n < lim -> let siz := BYTES_ALIGN (u64 (n + 1)) in n + 1 <= siz /\ siz mod 32 = 16 /\ siz < two32.
Proof. unfold lim. intros H. unfold BYTES_ALIGN, PN_ALIGN, u32, u64, two32, two64. lia. Qed.

Lemma obj_set h a o q : obj (set_obj h a o) q = if q =? a then Some o else obj h q.
Proof. reflexivity. Qed.
Lemma alloc_wf h o n : bwf h -> okobj o -> isfwd o = false -> 0 < n ->
  bwf (fst (alloc h o n)) /\ snd (alloc h o n) = bnext h /\ obj h (bnext h) = None /\
  obj (fst (alloc h o n)) (bnext h) = Some o /\
  (forall q, q <> bnext h -> obj (fst (alloc h o n)) q = obj h q) /\ bnext h < bnext (fst (alloc h o n)).
Proof.
  intros W OK NF N.
  assert (FR : obj h (bnext h) = None).
  { destruct (obj h (bnext h)) eqn:E; [|reflexivity]. pose proof (bw_rng _ W _ _ E). lia. }
  assert (AL : 0 < PN_ALIGN n 8) by (unfold PN_ALIGN; lia).
  unfold alloc. cbn [fst snd bnext obj]. split; [|split; [reflexivity|split; [exact FR|split; [rewrite Z.eqb_refl; reflexivity|split; [|lia]]]]].
  - constructor; cbn [obj bnext].
    + pose proof (bw_next _ W). lia.
    + intros a o' E. destruct (Z.eqb_spec a (bnext h)) as [->|]; [pose proof (bw_next _ W); lia|]. pose proof (bw_rng _ W _ _ E). lia.
    + intros a p E. destruct (Z.eqb_spec a (bnext h)) as [->|]; [injection E as ->; discriminate|].
      destruct (bw_fwd _ W _ _ E) as [A B]. split; [exact A|]. destruct (p =? bnext h); [discriminate|exact B].
    + intros a o' E. destruct (Z.eqb_spec a (bnext h)) as [->|]; [injection E as <-; exact OK|]. apply (bw_obj _ W _ _ E).
  - intros q Hq. destruct (Z.eqb_spec q (bnext h)); [contradiction|reflexivity].
Qed.
Lemma set_wf h a o o' : bwf h -> obj h a = Some o' -> okobj o -> isfwd o = false -> bwf (set_obj h a o).
Proof.
  intros W E OK NF. constructor; cbn [set_obj bnext]; intros.
  - apply W.
  - rewrite obj_set in H. destruct (Z.eqb_spec a0 a) as [->|]; [apply (bw_rng _ W _ _ E)|apply (bw_rng _ W _ _ H)].
  - rewrite obj_set in *. destruct (Z.eqb_spec a0 a) as [->|]; [injection H as ->; discriminate|].
    destruct (bw_fwd _ W _ _ H) as [A B]. split; [exact A|]. destruct (p =? a); [discriminate|exact B].
  - rewrite obj_set in H. destruct (Z.eqb_spec a0 a) as [->|]; [injection H as <-; exact OK|apply (bw_obj _ W _ _ H)].
Qed.

Lemma room_ok junk h s slen siz mem len : junkok junk -> bwf h -> obj h s = Some (OBytes slen siz mem) ->
  0 <= len -> slen + len < lim ->
  exists h' s' siz' mem', bytes_room junk h s len = Ok (h', s') /\ bwf h' /\ frame h h' s s' /\
    obj h' s' = Some (OBytes slen siz' mem') /\ slen + len + 1 <= siz' /\ ztake slen mem' = ztake slen mem.
Proof.
  intros J W E L0 L. pose proof (bw_obj _ W _ _ E) as (B1 & B2 & B3 & B4).
  unfold bytes_room. rewrite E. replace (u32 (slen + len + 1)) with (slen + len + 1) by (unfold u32, lim, two32 in *; lia).
  destruct (Z.gtb_spec (slen + len + 1) siz) as [G|G].
  - replace (u32 (slen + len)) with (slen + len) by (unfold u32, lim, two32 in *; lia).
    pose proof (grown_ok (slen + len) ltac:(lia)) as (S1 & S2 & S3). cbn zeta in S1, S2, S3.
    set (siz' := BYTES_ALIGN (grown (slen + len))) in *. cbn zeta. unfold bytes_realloc. rewrite E.
    replace (PN_ALIGN (16 + siz) 8 >=? 16 + siz') with false by (unfold PN_ALIGN; lia).
    assert (JL : zlen (junk (siz' - siz)) = siz' - siz) by (apply J; lia).
    destruct (alloc h (OBytes slen siz (mem ++ junk (siz' - siz))) (16 + siz')) as [h1 b] eqn:EA.
    assert (FR : obj h (bnext h) = None).
    { destruct (obj h (bnext h)) eqn:X; [|reflexivity]. pose proof (bw_rng _ W _ _ X). lia. }
    pose proof (bw_rng _ W _ _ E) as RS_.
    injection EA as E1 E2. subst b h1. cbn [bind].
    set (newo := OBytes slen (u32 siz') (mem ++ junk (siz' - siz))).
    assert (AL : 0 < PN_ALIGN (16 + siz') 8) by (unfold PN_ALIGN; lia).
    rewrite !obj_set. cbn [obj]. destruct (Z.eqb_spec (bnext h) s); [lia|]. rewrite Z.eqb_refl. cbn [bind].
    eexists _, (bnext h), (u32 siz'), (mem ++ junk (siz' - siz)). split; [reflexivity|].
    assert (US : u32 siz' = siz') by (unfold u32, two32 in *; lia).
    assert (OB : forall q, obj (set_obj (set_obj {| obj := fun q : Z => if q =? bnext h then Some (OBytes slen siz (mem ++ junk (siz' - siz))) else obj h q;
        bnext := bnext h + PN_ALIGN (16 + siz') 8 |} s (OFwd (bnext h))) (bnext h) newo) q =
        if q =? bnext h then Some newo else if q =? s then Some (OFwd (bnext h)) else obj h q).
    { intros q. rewrite !obj_set. cbn [obj]. destruct (Z.eqb_spec q (bnext h)); [reflexivity|]. reflexivity. }
    fold newo. set (h' := set_obj _ (bnext h) newo) in *. 
    assert (BN : bnext h' = bnext h + PN_ALIGN (16 + siz') 8) by reflexivity. clearbody h'.
    split; [|split; [|split; [|split]]].
    + constructor.
      * rewrite BN. pose proof (bw_next _ W). lia.
      * intros a o H. rewrite OB in H. rewrite BN. pose proof (bw_next _ W).
        destruct (Z.eqb_spec a (bnext h)); [lia|]. destruct (Z.eqb_spec a s); [lia|]. pose proof (bw_rng _ W _ _ H). lia.
      * intros a p H. rewrite OB in H. destruct (Z.eqb_spec a (bnext h)); [discriminate|].
        destruct (Z.eqb_spec a s) as [->|].
        -- injection H as <-. split; [lia|]. rewrite OB, Z.eqb_refl. discriminate.
        -- destruct (bw_fwd _ W _ _ H) as [A B]. split; [exact A|]. rewrite OB.
           destruct (p =? bnext h); [discriminate|]. destruct (p =? s); [discriminate|exact B].
      * intros a o H. rewrite OB in H. destruct (Z.eqb_spec a (bnext h)) as [->|].
        -- injection H as <-. cbn [okobj newo]. rewrite US. rewrite zlen_app, JL. split; [lia|]. split; [exact S2|]. split; [exact S3|lia].
        -- destruct (Z.eqb_spec a s); [injection H as <-; exact I|]. apply (bw_obj _ W _ _ H).
    + constructor.
      * intros q o N H. rewrite OB. pose proof (bw_rng _ W _ _ H). destruct (Z.eqb_spec q (bnext h)); [lia|].
        destruct (Z.eqb_spec q s); [contradiction|exact H].
      * eexists. split; [exact E|reflexivity].
      * apply (RS _ _ (bnext h)); [rewrite OB; replace (s =? bnext h) with false by lia; rewrite Z.eqb_refl; reflexivity|].
        apply (R0 _ _ newo); [rewrite OB, Z.eqb_refl; reflexivity|reflexivity].
      * right. exact FR.
    + rewrite OB, Z.eqb_refl. reflexivity.
    + rewrite US. lia.
    + unfold ztake. rewrite firstn_app. replace (Z.to_nat slen - length mem)%nat with 0%nat by (unfold zlen in *; lia).
      cbn [firstn]. apply app_nil_r.
  - exists h, s, siz, mem. split; [reflexivity|]. split; [exact W|]. split; [|split; [exact E|split; [lia|reflexivity]]].
    constructor; eauto. apply (R0 _ _ _ E). reflexivity.
Qed.

(** ** contents *)
Inductive kind := KStr | KBytes.
Definition val_of (o : bobj) : option (kind * list Z) :=
  match o with
  | OStr c => Some (KStr, c)
  | OBytes len siz mem => Some (KBytes, ztake len mem)
  | OFwd _ => None
  end.
(** handle [a] denotes contents [kc]; buffers are NUL-terminated within capacity *)
Definition terminated (o : bobj) : Prop :=
  match o with OBytes len siz mem => len < zlen mem /\ znth mem len = 0 | _ => True end.
Definition denotes (h : bheap) (a : Z) (kc : kind * list Z) : Prop :=
  exists b o, resolves h a b /\ obj h b = Some o /\ val_of o = Some kc /\ terminated o.

Lemma frame_denotes h h' s s' o' a kc : frame h h' s s' -> obj h' s' = Some o' ->
  terminated o' ->
  denotes h a kc ->
  (~ resolves h a s -> denotes h' a kc) /\ (forall kc', val_of o' = Some kc' -> resolves h a s -> denotes h' a kc').
Proof.
  intros F E T (b & o & R & O & V & TM). pose proof (frame_resolves _ _ _ _ _ _ F R) as R'. split.
  - intros N. destruct (Z.eqb_spec b s) as [->|D]; [contradiction|]. exists b, o.
    split; [exact R'|]. split; [apply F; assumption|]. auto.
  - intros kc' V' R2. rewrite (resolves_fun _ _ _ _ R R2), Z.eqb_refl in R'. exists s', o'. auto.
Qed.

Lemma write_ok h h1 s s1 slen siz mem src : bwf h1 -> frame h h1 s s1 -> obj h1 s1 = Some (OBytes slen siz mem) ->
  slen + zlen src + 1 <= siz ->
  exists mem', (do m <- blit mem slen src; wr m (slen + zlen src) 0) = Ok mem' /\
   blit mem slen (src ++ [0]) = Ok mem' /\
   let o := OBytes (slen + zlen src) siz mem' in
   let h' := set_obj h1 s1 o in
   bwf h' /\ frame h h' s s1 /\ obj h' s1 = Some o /\ val_of o = Some (KBytes, ztake slen mem ++ src) /\ terminated o.
Proof.
  intros W F E L. pose proof (bw_obj _ W _ _ E) as (B1 & B2 & B3 & B4). pose proof (zlen_nonneg src).
  destruct (blit_at mem slen (src ++ [0]) ltac:(lia)) as (m2 & EB & LM & TK & OT).
  { rewrite zlen_app. change (zlen [0]) with 1. lia. }
  assert (SPLIT : blit mem slen (src ++ [0]) = do m <- blit mem slen src; wr m (slen + zlen src) 0).
  { clear. revert mem slen. induction src as [|b src IH]; intros mem slen; cbn [app blit].
    - cbn. rewrite Z.add_0_r. destruct (wr mem slen 0); reflexivity.
    - destruct (wr mem slen b); [|reflexivity|reflexivity]. cbn [bind]. rewrite IH. rewrite zlen_cons.
      replace (slen + 1 + zlen src) with (slen + (1 + zlen src)) by lia. reflexivity. }
  exists m2. rewrite <- SPLIT. split; [exact EB|]. split; [exact EB|]. cbn zeta.
  rewrite zlen_app in *. change (zlen [0]) with 1 in *.
  assert (LT : zlen (ztake slen mem) = slen) by (apply zlen_ztake; lia).
  assert (TK' : ztake (slen + zlen src) m2 = ztake slen mem ++ src).
  { replace (ztake (slen + zlen src) m2) with (ztake (slen + zlen src) (ztake (slen + (zlen src + 1)) m2)).
    - rewrite TK. rewrite app_assoc. unfold ztake at 1. rewrite firstn_app.
      replace (Z.to_nat (slen + zlen src) - length (ztake slen mem ++ src))%nat with 0%nat by (rewrite app_length; unfold zlen in *; lia).
      cbn [firstn]. rewrite app_nil_r. apply firstn_all2. rewrite app_length. unfold zlen in *. lia.
    - unfold ztake. rewrite firstn_firstn. f_equal. lia. }
  assert (NUL : znth m2 (slen + zlen src) = 0).
  { rewrite <- (znth_ztake m2 (slen + (zlen src + 1))) by lia. rewrite TK, app_assoc.
    rewrite znth_app2 by (rewrite zlen_app; lia). rewrite zlen_app, LT, Z.sub_diag. reflexivity. }
  split; [|split; [|split; [|split]]].
  - apply (set_wf _ _ _ _ W E); [|reflexivity]. cbn. split; [lia|]. split; [exact B2|]. split; [exact B3|lia].
  - constructor.
    + intros q o N H'. rewrite obj_set. destruct (Z.eqb_spec q s1) as [->|].
      * destruct (f_fresh _ _ _ _ F) as [->|Q]; [contradiction|congruence].
      * apply F; assumption.
    + apply F.
    + pose proof (f_new _ _ _ _ F) as R. clear -R E.
      assert (X : forall a b, resolves h1 a b -> b = s1 -> resolves (set_obj h1 s1 (OBytes (slen + zlen src) siz m2)) a s1).
      { induction 1 as [a o Ea N|a p b Ea Rp IH]; intros ->.
        - eapply R0; [rewrite obj_set, Z.eqb_refl; reflexivity|reflexivity].
        - apply (RS _ _ p); [|apply IH; reflexivity]. rewrite obj_set. destruct (Z.eqb_spec a s1) as [->|]; [congruence|exact Ea]. }
      apply (X s s1 R eq_refl).
    + apply F.
  - rewrite obj_set, Z.eqb_refl. reflexivity.
  - cbn. rewrite TK'. reflexivity.
  - cbn. split; [lia|exact NUL].
Qed.

Lemma append_ok junk h self s slen siz mem str t kc : junkok junk -> bwf h ->
  resolves h self s -> obj h s = Some (OBytes slen siz mem) ->
  denotes h str kc -> resolves h str t -> slen + zlen (snd kc) < lim ->
  exists h' s' o, bytes_append junk h self str = Ok h' /\ bwf h' /\ frame h h' s s' /\
    obj h' s' = Some o /\ val_of o = Some (KBytes, ztake slen mem ++ snd kc) /\ terminated o.
Proof.
  intros J W R E (t' & ot & RT & OT & VT & TT) RT2 L.
  pose proof (resolves_fun _ _ _ _ RT2 RT) as TE. subst t'. clear RT2.
  pose proof (bw_obj _ W _ _ E) as (B1 & B2 & B3 & B4). pose proof (zlen_nonneg (snd kc)).
  unfold bytes_append. rewrite (bfwd_ok _ _ _ W R). cbn [bind]. rewrite (bfwd_ok _ _ _ W RT). cbn [bind].
  assert (SL : str_len h t = Ok (zlen (snd kc)) /\ zlen (snd kc) <= match ot with OStr c => zlen c | OBytes _ _ m => zlen m | _ => 0 end).
  { unfold str_len. rewrite OT. pose proof (bw_obj _ W _ _ OT) as OK. destruct ot as [c|l2 s2 m2|]; cbn in VT; try discriminate.
    - injection VT as <-. cbn. split; [reflexivity|lia].
    - injection VT as <-. cbn. cbn in OK. rewrite zlen_ztake by lia. split; [reflexivity|lia]. }
  destruct SL as [SL CAP]. rewrite SL. cbn [bind].
  destruct (room_ok junk h s slen siz mem (zlen (snd kc)) J W E) as (h1 & s1 & siz1 & mem1 & E1 & W1 & F1 & O1 & C1 & K1); [lia|lia|].
  rewrite E1. cbn [bind].
  assert (SRC : str_chars h1 t (zlen (snd kc)) = Ok (snd kc)).
  { unfold str_chars. assert (RS' : resolves h t t) by (destruct (resolves_obj _ _ _ RT) as (o' & A & B); apply (R0 _ _ _ A B)).
    pose proof (frame_resolves _ _ _ _ _ _ F1 RS') as R1. rewrite (bfwd_ok _ _ _ W1 R1). cbn [bind].
    destruct (Z.eqb_spec t s) as [->|N].
    - rewrite O1. rewrite E in OT. injection OT as <-. cbn in VT. injection VT as <-. cbn [snd].
      pose proof (bw_obj _ W1 _ _ O1) as (D1 & D2 & D3 & D4).
      rewrite zlen_ztake by lia. replace (slen <=? zlen mem1) with true by lia. rewrite K1. reflexivity.
    - rewrite (f_keep _ _ _ _ F1 _ _ N OT). destruct ot as [c|l2 s2 m2|]; cbn in VT; try discriminate; injection VT as <-; cbn [snd] in *.
      + replace (zlen c <=? zlen c) with true by lia. unfold ztake, zlen. rewrite Nat2Z.id, firstn_all. reflexivity.
      + pose proof (bw_obj _ W _ _ OT) as (D1 & D2 & D3 & D4). rewrite zlen_ztake by lia.
        replace (l2 <=? zlen m2) with true by lia. reflexivity. }
  rewrite SRC. cbn [bind]. rewrite O1.
  destruct (write_ok h h1 s s1 slen siz1 mem1 (snd kc) W1 F1 O1 ltac:(lia)) as (m' & X1 & X2 & W' & F' & O' & V' & T').
  replace (u32 (slen + zlen (snd kc))) with (slen + zlen (snd kc)) by (unfold u32, lim, two32 in *; lia).
  destruct (blit mem1 slen (snd kc)) as [m| |] eqn:EB; cbn [bind] in X1 |- *; [|discriminate|discriminate].
  rewrite X1. cbn [bind]. do 3 eexists. split; [reflexivity|]. split; [exact W'|]. split; [exact F'|].
  split; [exact O'|]. rewrite <- K1. split; [exact V'|exact T'].
Qed.
Lemma printf_ok junk h self s slen siz mem text : junkok junk -> bwf h ->
  resolves h self s -> obj h s = Some (OBytes slen siz mem) -> slen + zlen text < lim ->
  exists h' s' o, bytes_printf junk h self text = Ok h' /\ bwf h' /\ frame h h' s s' /\
    obj h' s' = Some o /\ val_of o = Some (KBytes, ztake slen mem ++ text) /\ terminated o.
Proof.
  intros J W R E L. pose proof (bw_obj _ W _ _ E) as (B1 & B2 & B3 & B4). pose proof (zlen_nonneg text).
  unfold bytes_printf. rewrite (bfwd_ok _ _ _ W R). cbn [bind]. cbn zeta.
  replace (u32 (zlen text)) with (zlen text) by (unfold u32, lim, two32 in *; lia).
  destruct (room_ok junk h s slen siz mem (zlen text) J W E) as (h1 & s1 & siz1 & mem1 & E1 & W1 & F1 & O1 & C1 & K1); [lia|lia|].
  rewrite E1. cbn [bind]. rewrite O1.
  destruct (write_ok h h1 s s1 slen siz1 mem1 text W1 F1 O1 ltac:(lia)) as (m' & X1 & X2 & W' & F' & O' & V' & T').
  rewrite X2. cbn [bind]. replace (u32 (slen + zlen text)) with (slen + zlen text) by (unfold u32, lim, two32 in *; lia).
  do 3 eexists. split; [reflexivity|]. split; [exact W'|]. split; [exact F'|].
  split; [exact O'|]. rewrite <- K1. split; [exact V'|exact T'].
Qed.
Lemma new_bytes_ok junk h c : junkok junk -> bwf h -> zlen c < lim ->
  exists h' o, byte_str2 junk h c = Ok (h', bnext h) /\ bwf h' /\ obj h' (bnext h) = Some o /\
    val_of o = Some (KBytes, c) /\ terminated o /\ (forall q o, obj h q = Some o -> obj h' q = Some o) /\ obj h (bnext h) = None.
Proof.
  intros J W L. pose proof (zlen_nonneg c). pose proof (align_ok (zlen c) ltac:(lia)) as (S1 & S2 & S3). cbn zeta in *.
  unfold byte_str2, potion_bytes. set (siz := BYTES_ALIGN (u64 (zlen c + 1))) in *. cbn zeta.
  replace (u32 siz) with siz by (unfold u32, two32 in *; lia). replace (u32 (zlen c)) with (zlen c) by (unfold u32, lim, two32 in *; lia).
  assert (OK : okobj (OBytes (zlen c) siz (junk siz))).
  { cbn. split; [lia|]. split; [exact S2|]. split; [exact S3|]. apply J. lia. }
  destruct (alloc_wf h _ (16 + siz) W OK eq_refl ltac:(lia)) as (W1 & A1 & A2 & A3 & A4 & A5).
  destruct (alloc h _ (16 + siz)) as [h1 a] eqn:EA. cbn [fst snd] in *. subst a. rewrite A3.
  assert (F : frame h1 h1 (bnext h) (bnext h)).
  { constructor; eauto. apply (R0 _ _ _ A3). reflexivity. }
  pose proof (bw_obj _ W1 _ _ A3) as (D1 & D2 & D3 & D4).
  (* fill from position 0 *)
  destruct (blit_at (junk siz) 0 (c ++ [0]) ltac:(lia)) as (m2 & EB & LM & TK & OT).
  { rewrite zlen_app. change (zlen [0]) with 1. lia. }
  assert (SPLIT : blit (junk siz) 0 (c ++ [0]) = do m <- blit (junk siz) 0 c; wr m (zlen c) 0).
  { clear. generalize (junk siz) as mem. replace (zlen c) with (0 + zlen c) by lia. generalize 0 at 1 3 4 as i.
    induction c as [|b src IH]; intros i mem; cbn [app blit].
    - cbn. replace (i + zlen []) with i by (unfold zlen; cbn; lia). destruct (wr mem i 0); reflexivity.
    - destruct (wr mem i b); [|reflexivity|reflexivity]. cbn [bind]. rewrite IH. rewrite zlen_cons.
      replace (i + 1 + zlen src) with (i + (1 + zlen src)) by lia. reflexivity. }
  rewrite SPLIT in EB. destruct (blit (junk siz) 0 c) as [m| |]; cbn [bind] in EB |- *; [|discriminate|discriminate].
  rewrite EB. cbn [bind]. do 2 eexists. split; [reflexivity|].
  rewrite zlen_app in *. change (zlen [0]) with 1 in *. rewrite Z.add_0_l in *. cbn [ztake] in TK.
  change (ztake 0 (junk siz)) with (@nil Z) in TK. cbn [app] in TK.
  split; [|split; [rewrite obj_set, Z.eqb_refl; reflexivity|split; [|split; [|split; [|exact A2]]]]].
  - apply (set_wf _ _ _ _ W1 A3); [|reflexivity]. cbn. split; [lia|]. split; [exact S2|]. split; [exact S3|lia].
  - cbn. f_equal. f_equal. replace (ztake (zlen c) m2) with (ztake (zlen c) (ztake (zlen c + 1) m2)).
    + rewrite TK. unfold ztake, zlen. rewrite Nat2Z.id, firstn_app, firstn_all, Nat.sub_diag. cbn [firstn]. apply app_nil_r.
    + unfold ztake. rewrite firstn_firstn. f_equal. lia.
  - cbn. split; [lia|]. rewrite <- (znth_ztake m2 (zlen c + 1)) by lia. rewrite TK, znth_app2 by lia. rewrite Z.sub_diag. reflexivity.
  - intros q o Hq. rewrite obj_set. destruct (Z.eqb_spec q (bnext h)) as [->|]; [congruence|]. rewrite A4 by assumption. exact Hq.
Qed.

(** ** Histories *)
(** buffers and strings are named by the number of their creation *)
Inductive bop :=
| NewStr (c : list Z)            (* a string *)
| NewBytes (c : list Z)          (* a byte buffer with the given contents *)
| Append (i j : nat)             (* i append(j) *)
| Printf (i : nat) (text : list Z).
Definition bstate := list (kind * list Z).
Definition supd (st : bstate) (i : nat) (c : list Z) : bstate := firstn i st ++ (KBytes, c) :: skipn (S i) st.
(** specification; None: the operation does not apply, or a buffer reaches 2^31 bytes *)
Definition spec_step (st : bstate) (op : bop) : option bstate :=
  match op with
  | NewStr c => Some (st ++ [(KStr, c)])
  | NewBytes c => if zlen c <? 2147483648 then Some (st ++ [(KBytes, c)]) else None
  | Append i j => match nth_error st i, nth_error st j with
                  | Some (KBytes, c), Some (_, d) => if zlen c + zlen d <? 2147483648 then Some (supd st i (c ++ d)) else None
                  | _, _ => None
                  end
  | Printf i d => match nth_error st i with
                  | Some (KBytes, c) => if zlen c + zlen d <? 2147483648 then Some (supd st i (c ++ d)) else None
                  | _ => None
                  end
  end.
Fixpoint spec_run (st : bstate) (ops : list bop) : option bstate :=
  match ops with [] => Some st | op :: r => match spec_step st op with Some st => spec_run st r | None => None end end.
(** the code; handles never change *)
Definition step (junk : Z -> list Z) (h : bheap) (hs : list Z) (op : bop) : res (bheap * list Z) :=
  match op with
  | NewStr c => let (h, a) := alloc h (OStr c) (12 + zlen c + 1) in Ok (h, hs ++ [a])
  | NewBytes c => do (h, a) <- byte_str2 junk h c; Ok (h, hs ++ [a])
  | Append i j => do h <- bytes_append junk h (nth i hs 0) (nth j hs 0); Ok (h, hs)
  | Printf i d => do h <- bytes_printf junk h (nth i hs 0) d; Ok (h, hs)
  end.
Fixpoint run (js : nat -> Z -> list Z) (h : bheap) (hs : list Z) (ops : list bop) : res (bheap * list Z) :=
  match ops with
  | [] => Ok (h, hs)
  | op :: r => do (h, hs) <- step (js (length ops)) h hs op; run js h hs r
  end.
Definition bempty : bheap := mkBH (fun _ => None) 4096.

Lemma nth_error_supd st i c j : (i < length st)%nat ->
  nth_error (supd st i c) j = if Nat.eqb i j then Some (KBytes, c) else nth_error st j.
Proof.
  intros L. unfold supd. destruct (Nat.eqb_spec i j) as [<-|N].
  - rewrite nth_error_app2 by (rewrite firstn_length; lia). rewrite firstn_length. replace (i - Nat.min i (length st))%nat with 0%nat by lia. reflexivity.
  - destruct (Nat.lt_ge_cases j i).
    + rewrite nth_error_app1 by (rewrite firstn_length; lia).
      revert i j L H N. induction st as [|x st IH]; intros i j L H N; [cbn in L; lia|].
      destruct i; [lia|]. destruct j; [reflexivity|]. cbn. apply IH; cbn in L; lia.
    + rewrite nth_error_app2 by (rewrite firstn_length; lia). rewrite firstn_length.
      replace (j - Nat.min i (length st))%nat with (S (j - i - 1)) by lia. cbn [nth_error].
      revert i j L H N. induction st as [|x st IH]; intros i j L H N; [cbn in L; lia|].
      destruct i; [cbn; destruct j; [lia|]; cbn; f_equal; lia|]. destruct j; [lia|]. cbn [skipn nth_error].
      replace (S j - S i - 1)%nat with (j - i - 1)%nat by lia. apply IH; cbn in L; lia.
Qed.
(** handles are pairwise different objects *)
Record matches (h : bheap) (hs : list Z) (st : bstate) : Prop := {
  m_len : length hs = length st;
  m_den : forall i kc, nth_error st i = Some kc -> denotes h (nth i hs 0) kc;
  m_sep : forall i j b, (i < length hs)%nat -> (j < length hs)%nat ->
     resolves h (nth i hs 0) b -> resolves h (nth j hs 0) b -> i = j }.

Lemma frame_matches h h' hs st i s s' o' c : matches h hs st -> bwf h -> frame h h' s s' -> (i < length hs)%nat ->
  resolves h (nth i hs 0) s -> obj h' s' = Some o' -> val_of o' = Some (KBytes, c) -> terminated o' ->
  matches h' hs (supd st i c).
Proof.
  intros M W F L R O V T. constructor.
  - unfold supd. rewrite app_length. cbn [length]. rewrite firstn_length, skipn_length. rewrite (m_len _ _ _ M) in *. lia.
  - intros j kc. rewrite nth_error_supd by (rewrite <- (m_len _ _ _ M); exact L). destruct (Nat.eqb_spec i j) as [<-|N].
    + intros E. injection E as <-.
      destruct (nth_error st i) as [kc0|] eqn:E0; [|apply nth_error_None in E0; rewrite (m_len _ _ _ M) in L; lia].
      destruct (frame_denotes _ _ _ _ _ _ _ F O T (m_den _ _ _ M _ _ E0)) as [_ H]. apply H; assumption.
    + intros E. destruct (frame_denotes _ _ _ _ _ _ _ F O T (m_den _ _ _ M _ _ E)) as [H _]. apply H.
      intros R2. apply N. apply (m_sep _ _ _ M i j s); auto. rewrite (m_len _ _ _ M). apply nth_error_Some. congruence.
  - intros j k b Lj Lk R1 R2.
    destruct (nth_error st j) as [kj|] eqn:Ej; [|apply nth_error_None in Ej; rewrite (m_len _ _ _ M) in Lj; lia].
    destruct (nth_error st k) as [kk|] eqn:Ek; [|apply nth_error_None in Ek; rewrite (m_len _ _ _ M) in Lk; lia].
    destruct (m_den _ _ _ M _ _ Ej) as (bj & oj & Rj & Oj & Vj & _). destruct (m_den _ _ _ M _ _ Ek) as (bk & ok & Rk & Ok & Vk & _).
    pose proof (resolves_fun _ _ _ _ R1 (frame_resolves _ _ _ _ _ _ F Rj)) as Bj.
    pose proof (resolves_fun _ _ _ _ R2 (frame_resolves _ _ _ _ _ _ F Rk)) as Bk.
    apply (m_sep _ _ _ M j k bj); auto. replace bj with bk; [exact Rk|].
    destruct (Z.eqb_spec bj s), (Z.eqb_spec bk s); try congruence.
    + destruct (f_fresh _ _ _ _ F) as [Q|Q]; congruence.
    + destruct (f_fresh _ _ _ _ F) as [Q|Q]; congruence.
Qed.
Lemma extend_matches h h' hs st a o kc : matches h hs st -> bwf h -> (forall q o, obj h q = Some o -> obj h' q = Some o) ->
  obj h a = None -> obj h' a = Some o -> val_of o = Some kc -> terminated o ->
  matches h' (hs ++ [a]) (st ++ [kc]).
Proof.
  intros M W K N O V T.
  assert (RK : forall x b, resolves h x b -> resolves h' x b).
  { induction 1 as [x ox E F|x p b E R IH]; [apply (R0 _ _ ox); auto|apply (RS _ _ p); auto]. }
  assert (NF : isfwd o = false) by (destruct o; [reflexivity|reflexivity|discriminate]).
  assert (AA : resolves h' a a) by (apply (R0 _ _ o); assumption).
  assert (OLD : forall i, (i < length hs)%nat -> exists b, resolves h (nth i hs 0) b /\ obj h b <> None).
  { intros i Hi. destruct (nth_error st i) as [kc'|] eqn:E; [|apply nth_error_None in E; rewrite (m_len _ _ _ M) in Hi; lia].
    destruct (m_den _ _ _ M _ _ E) as (b & ob & R & Ob & _). exists b. split; [exact R|congruence]. }
  constructor.
  - rewrite !app_length. cbn. rewrite (m_len _ _ _ M). reflexivity.
  - intros i kc' E. destruct (Nat.lt_ge_cases i (length st)) as [L|L].
    + rewrite nth_error_app1 in E by exact L. rewrite app_nth1 by (rewrite (m_len _ _ _ M); exact L).
      destruct (m_den _ _ _ M _ _ E) as (b & ob & R & Ob & Vb & Tb). exists b, ob. auto.
    + rewrite nth_error_app2 in E by exact L. destruct (i - length st)%nat as [|n] eqn:D; [|destruct n; discriminate].
      cbn in E. injection E as <-. rewrite app_nth2 by (rewrite (m_len _ _ _ M); exact L).
      rewrite (m_len _ _ _ M), D. cbn. exists a, o. auto.
  - intros i j b Li Lj Ri Rj. rewrite app_length in Li, Lj. cbn in Li, Lj.
    assert (CASE : forall k, (k < length hs + 1)%nat -> forall b, resolves h' (nth k (hs ++ [a]) 0) b ->
       ((k < length hs)%nat /\ resolves h (nth k hs 0) b /\ obj h b <> None) \/ (k = length hs /\ b = a)).
    { intros k Lk b' Rb. destruct (Nat.lt_ge_cases k (length hs)) as [L|L].
      - left. rewrite app_nth1 in Rb by exact L. destruct (OLD k L) as (b0 & R0' & N0).
        rewrite (resolves_fun _ _ _ _ Rb (RK _ _ R0')). auto.
      - right. split; [lia|]. rewrite app_nth2 in Rb by exact L. replace (k - length hs)%nat with 0%nat in Rb by lia. cbn in Rb.
        apply (resolves_fun _ _ _ _ Rb AA). }
    destruct (CASE i ltac:(lia) b Ri) as [(A1 & A2 & A3)|[A1 A2]]; destruct (CASE j ltac:(lia) b Rj) as [(B1 & B2 & B3)|[B1 B2]].
    + apply (m_sep _ _ _ M i j b); assumption.
    + subst b. contradiction.
    + subst b. contradiction.
    + lia.
Qed.
Lemma step_ok junk h hs st op st' : junkok junk -> bwf h -> matches h hs st -> spec_step st op = Some st' ->
  exists h' hs', step junk h hs op = Ok (h', hs') /\ bwf h' /\ matches h' hs' st'.
Proof.
  intros J W M S. destruct op as [c|c|i j|i d]; cbn [spec_step step] in *.
  - injection S as <-. pose proof (zlen_nonneg c).
    destruct (alloc_wf h (OStr c) (12 + zlen c + 1) W I eq_refl ltac:(lia)) as (W1 & A1 & A2 & A3 & A4 & A5).
    destruct (alloc h (OStr c) (12 + zlen c + 1)) as [h1 a]. cbn [fst snd] in *. subst a.
    do 2 eexists. split; [reflexivity|]. split; [exact W1|].
    apply (extend_matches h h1 hs st (bnext h) (OStr c)); auto; [|exact I].
    intros q o Hq. destruct (Z.eq_dec q (bnext h)) as [->|]; [congruence|]. rewrite A4 by assumption. exact Hq.
  - destruct (Z.ltb_spec (zlen c) 2147483648) as [L|]; [|discriminate]. injection S as <-.
    destruct (new_bytes_ok junk h c J W L) as (h1 & o & E & W1 & O1 & V1 & T1 & K1 & N1). rewrite E. cbn [bind].
    do 2 eexists. split; [reflexivity|]. split; [exact W1|]. apply (extend_matches h h1 hs st (bnext h) o); auto.
  - destruct (nth_error st i) as [[[|] c]|] eqn:Ei; try discriminate. destruct (nth_error st j) as [[kd d]|] eqn:Ej; [|discriminate].
    destruct (Z.ltb_spec (zlen c + zlen d) 2147483648) as [L|]; [|discriminate]. injection S as <-.
    destruct (m_den _ _ _ M _ _ Ei) as (s & os & R & O & V & T). destruct os as [|slen siz mem|]; cbn in V; try discriminate.
    injection V as V. pose proof (bw_obj _ W _ _ O) as (B1 & B2 & B3 & B4).
    pose proof (m_den _ _ _ M _ _ Ej) as DJ. pose proof DJ as (t & ot & RT & _).
    assert (LC : zlen c = slen) by (rewrite <- V; apply zlen_ztake; lia).
    destruct (append_ok junk h _ s slen siz mem _ t (kd, d) J W R O DJ RT) as (h1 & s1 & o1 & E1 & W1 & F1 & O1 & V1 & T1).
    { cbn [snd]. unfold lim. lia. }
    rewrite E1. cbn [bind]. do 2 eexists. split; [reflexivity|]. split; [exact W1|].
    cbn [snd] in V1. rewrite V in V1. apply (frame_matches h h1 hs st i s s1 o1); auto.
    rewrite (m_len _ _ _ M). apply nth_error_Some. congruence.
  - destruct (nth_error st i) as [[[|] c]|] eqn:Ei; try discriminate.
    destruct (Z.ltb_spec (zlen c + zlen d) 2147483648) as [L|]; [|discriminate]. injection S as <-.
    destruct (m_den _ _ _ M _ _ Ei) as (s & os & R & O & V & T). destruct os as [|slen siz mem|]; cbn in V; try discriminate.
    injection V as V. pose proof (bw_obj _ W _ _ O) as (B1 & B2 & B3 & B4).
    assert (LC : zlen c = slen) by (rewrite <- V; apply zlen_ztake; lia).
    destruct (printf_ok junk h _ s slen siz mem d J W R O) as (h1 & s1 & o1 & E1 & W1 & F1 & O1 & V1 & T1).
    { unfold lim. lia. }
    rewrite E1. cbn [bind]. do 2 eexists. split; [reflexivity|]. split; [exact W1|].
    rewrite V in V1. apply (frame_matches h h1 hs st i s s1 o1); auto.
    rewrite (m_len _ _ _ M). apply nth_error_Some. congruence.
Qed.
Lemma bwf_empty : bwf bempty.
Proof. constructor; cbn; [lia|discriminate|discriminate|discriminate]. Qed.
Lemma run_ok js : (forall n, junkok (js n)) -> forall ops h hs st st', bwf h -> matches h hs st -> spec_run st ops = Some st' ->
  exists h' hs', run js h hs ops = Ok (h', hs') /\ bwf h' /\ matches h' hs' st'.
Proof.
  intros J. induction ops as [|op r IH]; intros h hs st st' W M S.
  - injection S as <-. exists h, hs. auto.
  - cbn [spec_run] in S. destruct (spec_step st op) as [st1|] eqn:E; [|discriminate].
    destruct (step_ok (js (length (op :: r))) h hs st op st1 (J _) W M E) as (h1 & hs1 & E1 & W1 & M1).
    cbn [run]. rewrite E1. cbn [bind]. apply (IH h1 hs1 st1 st' W1 M1 S).
Qed.

(** Any history of creations, appends (of strings, of other buffers, of the
    buffer itself) and formatted writes runs without touching memory outside the
    buffers, and every buffer ends up with the concatenation of what was written
    to it, NUL-terminated within its capacity; the other objects are unchanged. *)
Theorem C30_buffers_hold_what_was_written :
  forall js ops st, (forall n k, 0 <= k -> zlen (js n k) = k) -> spec_run [] ops = Some st ->
  exists h hs, run js bempty [] ops = Ok (h, hs) /\ length hs = length st /\
   (forall i c, nth_error st i = Some (KBytes, c) ->
      exists b siz mem, bfwd h (nth i hs 0) = Ok b /\ obj h b = Some (OBytes (zlen c) siz mem) /\
        zlen mem = siz /\ zlen c < siz /\ ztake (zlen c) mem = c /\ znth mem (zlen c) = 0) /\
   (forall i c, nth_error st i = Some (KStr, c) ->
      exists b, bfwd h (nth i hs 0) = Ok b /\ obj h b = Some (OStr c)).
Proof.
  intros js ops st J S.
  destruct (run_ok js J ops bempty [] [] st bwf_empty) as (h & hs & E & W & M); auto.
  { constructor; [reflexivity|intros i kc H; destruct i; discriminate|cbn; lia]. }
  exists h, hs. split; [exact E|]. split; [apply M|]. split; intros i c N; destruct (m_den _ _ _ M _ _ N) as (b & o & R & O & V & T).
  - destruct o as [|len siz mem|]; cbn in V; try discriminate. injection V as V.
    pose proof (bw_obj _ W _ _ O) as (B1 & B2 & B3 & B4). cbn in T.
    assert (LC : zlen c = len) by (rewrite <- V; apply zlen_ztake; lia).
    exists b, siz, mem. rewrite LC. split; [apply bfwd_ok; assumption|]. repeat split; auto; lia.
  - destruct o as [c'| |]; cbn in V; try discriminate. injection V as ->. exists b. split; [apply bfwd_ok; assumption|exact O].
Qed.
Example C30_example :
  spec_run [] [NewBytes [97]; NewStr [98; 99]; Append 0 1; Append 0 0; Append 0 0; Append 0 0; Printf 0 [100]]
   = Some [(KBytes, concat (repeat [97; 98; 99] 8) ++ [100]); (KStr, [98; 99])].
Proof. vm_compute. reflexivity. Qed.
Example C30_example_reallocates :
  exists h b, run (fun _ k => repeat 7 (Z.to_nat k)) bempty []
     [NewBytes [97]; NewStr [98; 99]; Append 0 1; Append 0 0; Append 0 0; Append 0 0; Printf 0 [100]] = Ok (h, [4096; 4128]) /\
   bfwd h 4096 = Ok b /\ b <> 4096.
Proof. eexists. eexists. split; [vm_compute; reflexivity|]. split; [vm_compute; reflexivity|]. discriminate. Qed.

(** ** C31: clone copies the sizes but not the bytes *)
Theorem C31_clone_copies_the_sizes_only :
  forall junk h self b len siz mem, bwf h -> resolves h self b -> obj h b = Some (OBytes len siz mem) ->
  exists h' a, bytes_clone junk h self = Ok (h', a) /\ obj h a = None /\ obj h' a = Some (OBytes len siz (junk siz)) /\
    (forall q, q <> a -> obj h' q = obj h q) /\
    bytes_length h' a = Ok (PN_NUM len) /\ bytes_length h self = Ok (PN_NUM len).
Proof.
  intros junk h self b len siz mem W R O. unfold bytes_clone. rewrite (bfwd_ok _ _ _ W R). cbn [bind]. rewrite O.
  unfold alloc. do 2 eexists. split; [reflexivity|].
  split. { destruct (obj h (bnext h)) eqn:Q; [|reflexivity]. pose proof (bw_rng _ W _ _ Q). lia. }
  split; [cbn [obj]; rewrite Z.eqb_refl; reflexivity|]. split; [intros q N; cbn [obj]; replace (q =? bnext h) with false by lia; reflexivity|]. split.
  - unfold bytes_length, bfwd. cbn [bfwd_loop obj]. rewrite Z.eqb_refl. cbn [bind]. unfold str_len. cbn [obj]. rewrite Z.eqb_refl. reflexivity.
  - unfold bytes_length. rewrite (bfwd_ok _ _ _ W R). cbn [bind]. unfold str_len. rewrite O. reflexivity.
Qed.
(** the bytes of the clone are whatever the new memory holds, never the
    original's: for every non-empty buffer there is a memory content for which
    the clone differs *)
Theorem C31_clone_does_not_copy_refuted :
  forall h self b len siz mem, bwf h -> resolves h self b -> obj h b = Some (OBytes len siz mem) -> 0 < len ->
  exists junk h' a siz' mem', junkok junk /\ bytes_clone junk h self = Ok (h', a) /\
    obj h' a = Some (OBytes len siz' mem') /\ ztake len mem' <> ztake len mem.
Proof.
  intros h self b len siz mem W R O L. pose proof (bw_obj _ W _ _ O) as (B1 & B2 & B3 & B4).
  exists (fun n => repeat (znth mem 0 + 1) (Z.to_nat n)). unfold bytes_clone. rewrite (bfwd_ok _ _ _ W R). cbn [bind]. rewrite O.
  do 4 eexists. split; [intros n Hn; rewrite zlen_repeat; lia|]. split; [reflexivity|]. cbn [obj]. rewrite Z.eqb_refl.
  split; [reflexivity|]. intros E. apply (f_equal (fun l => znth l 0)) in E. rewrite !znth_ztake in E by lia.
  unfold znth in E at 1. change (Z.to_nat 0) with 0%nat in E. replace (Z.to_nat siz) with (S (Z.to_nat (siz - 1))) in E by lia. cbn in E. lia.
Qed.

(** ** C54: bytes(i) is bounds-checked *)
Theorem C54_byte_access_is_bounds_checked :
  forall h self b len siz mem i, bwf h -> resolves h self b -> obj h b = Some (OBytes len siz mem) ->
  - two62 <= i < two62 ->
  bytes_at h self (PN_NUM i) = Ok (if (0 <=? i) && (i <? len) then Some (nth (Z.to_nat i) (ztake len mem) 0) else None).
Proof.
  intros h self b len siz mem i W R O Hi. pose proof (bw_obj _ W _ _ O) as (B1 & B2 & B3 & B4).
  unfold bytes_at. rewrite (bfwd_ok _ _ _ W R). cbn [bind]. unfold str_len. rewrite O. cbn [bind].
  rewrite PN_INT_NUM by (apply repb_spec; exact Hi).
  destruct (Z_lt_le_dec i 0).
  - replace ((u64 i >=? len) || (i <? 0)) with true by lia. replace ((0 <=? i) && (i <? len)) with false by lia. reflexivity.
  - replace (u64 i) with i by (unfold u64, two62, two64 in *; lia). destruct (Z_lt_le_dec i len).
    + replace ((i >=? len) || (i <? 0)) with false by lia. replace ((0 <=? i) && (i <? len)) with true by lia.
      rewrite rd_ok by lia. cbn [bind]. f_equal. f_equal. symmetry. apply znth_ztake. lia.
    + replace ((i >=? len) || (i <? 0)) with true by lia. replace ((0 <=? i) && (i <? len)) with false by lia. reflexivity.
Qed.
Example C54_example : exists h, run (fun _ k => repeat 7 (Z.to_nat k)) bempty [] [NewBytes [97; 98]] = Ok (h, [4096]) /\
  bytes_at h 4096 (PN_NUM 1) = Ok (Some 98) /\ bytes_at h 4096 (PN_NUM 2) = Ok None /\ bytes_at h 4096 (PN_NUM (-1)) = Ok None.
Proof. eexists. split; [vm_compute; reflexivity|]. split; [vm_compute; reflexivity|]. split; vm_compute; reflexivity. Qed.
