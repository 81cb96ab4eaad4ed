(** The buffered parser computes what PegModel's [run] computes. *)
From Verif Require Import Base Arr PegModel PegTerm BufModel.
From Coq Require Import ZifyBool.
Ltac Zify.zify_post_hook ::= Z.div_mod_to_equations.

Section Buf.
  Context {R A : Type} (rules : R -> pe R A) (nvars : R -> Z) (input : list Z) (slack : bool).
  Hypothesis Hlen : zlen input < 536870912.
  Hypothesis Hslack : slack = true \/ zlen input < 16384.
  Notation runb := (runb rules nvars input slack).
  Notation run := (run rules nvars).
  Notation greg := (greg A).

  (** the text of an action lies in the part of the buffer that has been filled *)
  Definition in_buf (lim : Z) (t : bth A) : Prop := match t with BAct _ b e => 0 <= b <= lim /\ 0 <= e <= lim | _ => True end.
  Lemma in_buf_le l l' t : l <= l' -> in_buf l t -> in_buf l' t.
  Proof. destruct t; cbn; lia. Qed.
  Lemma all_in_le l l' ts : l <= l' -> Forall (in_buf l) ts -> Forall (in_buf l') ts.
  Proof. intros H. apply Forall_impl. intros t. apply in_buf_le, H. Qed.
  Lemma all_in_firstn l n ts : Forall (in_buf l) ts -> Forall (in_buf l) (firstn n ts).
  Proof. intros H. revert n. induction H; destruct n; cbn; constructor; auto. Qed.
  Record inv (g : greg) : Prop := {
    i_len : 16384 <= zlen (g_buf g) /\ (zlen (g_buf g) = 16384 \/ zlen (g_buf g) <= 2 * (zlen input + 512));
    i_lim : 0 <= g_lim g <= zlen (g_buf g) /\ g_lim g <= zlen input;
    i_buf : forall i, 0 <= i < g_lim g -> znth (g_buf g) i = znth input i;
    i_pos : 0 <= g_pos g <= g_lim g;
    i_beg : 0 <= g_beg g <= g_lim g;
    i_end : 0 <= g_end g <= g_lim g;
    i_yy : g_yy g = g_lim g \/ (g_lim g = zlen input /\ zlen input <= g_yy g);
    i_ths : Forall (in_buf (g_lim g)) (g_ths g) }.
  (** same but for the buffer and what has been read into it *)
  Definition alike (g g' : greg) : Prop :=
    g_pos g' = g_pos g /\ g_beg g' = g_beg g /\ g_end g' = g_end g /\ g_ths g' = g_ths g /\ g_lim g <= g_lim g'.

  Lemma grow_ok k pos buf : 0 <= pos <= zlen buf -> pos <= zlen input -> 16384 <= zlen buf -> (zlen buf = 16384 \/ zlen buf <= 2 * (zlen input + 512)) ->
    exists buf', grow (S (S k)) pos buf = Some buf' /\ 512 <= zlen buf' - pos /\ zlen buf <= zlen buf'
      /\ (zlen buf' = 16384 \/ zlen buf' <= 2 * (zlen input + 512)) /\ forall i, 0 <= i < zlen buf -> znth buf' i = znth buf i.
  Proof.
    intros Hp Hq Hb Hc.
    change (grow (S (S k)) pos buf) with (if zlen buf - pos <? 512 then if 1073741824 <=? zlen buf then None else grow (S k) pos (buf ++ repeat 0 (length buf)) else Some buf).
    destruct (zlen buf - pos <? 512) eqn:E; [|exists buf; repeat split; try assumption; lia].
    destruct (1073741824 <=? zlen buf) eqn:F; [lia|].
    assert (L : zlen (buf ++ repeat 0 (length buf)) = 2 * zlen buf) by (rewrite zlen_app, zlen_repeat; unfold zlen; lia).
    set (b2 := buf ++ repeat 0 (length buf)) in *.
    change (grow (S k) pos b2) with (if zlen b2 - pos <? 512 then if 1073741824 <=? zlen b2 then None else grow k pos (b2 ++ repeat 0 (length b2)) else Some b2).
    rewrite L. replace (2 * zlen buf - pos <? 512) with false by lia. eexists. split; [reflexivity|]. rewrite L.
    split; [lia|]. split; [lia|]. split; [lia|]. intros i Hi. apply znth_app1. lia.
  Qed.
  Lemma copy_nth buf p l i : 0 <= p -> p <= zlen buf -> 0 <= i < p + zlen l ->
    znth (copy_to buf p l) i = if i <? p then znth buf i else znth l (i - p).
  Proof.
    intros H0 H1 H2. unfold copy_to. change (firstn (Z.to_nat p) buf) with (ztake p buf).
    destruct (i <? p) eqn:E.
    - rewrite znth_app1 by (rewrite zlen_ztake; lia). apply znth_ztake. lia.
    - rewrite znth_app2 by (rewrite zlen_ztake; lia). rewrite zlen_ztake by lia. apply znth_app1. lia.
  Qed.
  Lemma copy_len buf p l : 0 <= p -> p + zlen l <= zlen buf -> zlen (copy_to buf p l) = zlen buf.
  Proof.
    intros H0 H1. unfold copy_to, zlen in *. rewrite !app_length, firstn_length, skipn_length. lia.
  Qed.
  Lemma src_nth n k i : 0 <= k -> 0 <= n -> k + n <= zlen input + 1 ->
    zlen (firstn (Z.to_nat n) (skipn (Z.to_nat k) (input ++ [0]))) = n /\
    (0 <= i < n -> k + i < zlen input -> znth (firstn (Z.to_nat n) (skipn (Z.to_nat k) (input ++ [0]))) i = znth input (k + i)).
  Proof.
    intros Hk Hn Hle. split.
    - unfold zlen in *. rewrite firstn_length, skipn_length, app_length. cbn [length]. lia.
    - intros Hi Hj. change (firstn (Z.to_nat n) (skipn (Z.to_nat k) (input ++ [0]))) with (zsub (input ++ [0]) k n).
      rewrite znth_zsub by lia. apply znth_app1. lia.
  Qed.

  Lemma refill_ok g : inv g -> g_lim g <= g_pos g ->
    (g_pos g < zlen input -> exists g', yyrefill input slack g = BMatch g' /\ inv g' /\ alike g g' /\ g_pos g' < g_lim g') /\
    (zlen input <= g_pos g -> exists g', yyrefill input slack g = BFail g' /\ inv g' /\ alike g g').
  Proof.
    intros [Il Im Ib Ip Ig Ie Iy It] HL. unfold yyrefill.
    destruct (grow_ok 29 (g_pos g) (g_buf g)) as (buf & -> & G1 & G2 & G3 & G4); try lia; try assumption; try apply Il.
    cbv zeta. set (max := zlen buf - g_pos g). split; intros HP.
    - destruct Iy as [Iy|[Iy _]]; [|lia].
      replace (g_yy g <? zlen input) with true by lia.
      set (result := if zlen input <? g_yy g + max then zlen input - g_yy g else max).
      assert (Rg : 0 < result <= max /\ result <= zlen input - g_yy g) by (unfold result, max; destruct (_ <? _) eqn:E; lia).
      assert (K : forall n, result <= n <= max -> n <= zlen input - g_yy g + 1 ->
        let g' := mkG (copy_to buf (g_pos g) (firstn (Z.to_nat n) (skipn (Z.to_nat (g_yy g)) (input ++ [0])))) (g_lim g + result) (g_pos g) (g_beg g) (g_end g) (g_ths g) (g_yy g + max) in
        inv g' /\ alike g g' /\ g_pos g' < g_lim g').
      { intros n Hn Hm g'. destruct (src_nth n (g_yy g) 0) as [SL _]; try lia.
        assert (CL : zlen (g_buf g') = zlen buf) by (cbn [g_buf]; apply copy_len; unfold max in *; lia).
        split; [|split; [repeat split; cbn; lia | cbn; lia]].
        constructor; rewrite ?CL; cbn [g' g_buf g_lim g_pos g_beg g_end g_ths g_yy]; try lia.
        - intros i Hi. rewrite copy_nth by lia. destruct (i <? g_pos g) eqn:E.
          + rewrite G4 by lia. apply Ib. lia.
          + destruct (src_nth n (g_yy g) (i - g_pos g)) as [_ SN]; try lia. rewrite SN by lia. f_equal. lia.
        - unfold result in *. destruct (zlen input <? g_yy g + max) eqn:E; lia.
        - apply (all_in_le (g_lim g)); [lia | exact It]. }
      destruct (max <? result + 1) eqn:E.
      + assert (result = max) by lia. assert (HS : slack = true).
        { destruct Hslack as [S|S]; [exact S|]. unfold result, max in *. destruct (_ <? _) eqn:F in *; lia. }
        rewrite HS. specialize (K result). eexists. split; [reflexivity|]. apply K; lia.
      + specialize (K (result + 1)). eexists. split; [reflexivity|]. apply K; lia.
    - assert (g_pos g = zlen input) by lia. replace (g_yy g <? zlen input) with false by lia.
      eexists. split; [reflexivity|]. split; [|repeat split; cbn; lia].
      constructor; cbn [g_buf g_lim g_pos g_beg g_end g_ths g_yy]; try lia.
      2: exact It. intros i Hi. rewrite G4 by lia. apply Ib. lia.
  Qed.
  Lemma drop_cons i : 0 <= i < zlen input -> skipn (Z.to_nat i) input = znth input i :: skipn (Z.to_nat (i + 1)) input.
  Proof.
    intros H. unfold znth. replace (Z.to_nat (i + 1)) with (S (Z.to_nat i)) by lia.
    assert (L : (Z.to_nat i < length input)%nat) by (unfold zlen in H; lia).
    clear H. revert L. generalize (Z.to_nat i). clear. intros n. revert n. induction input as [|x l IH]; intros n L; [cbn in L; lia|].
    destruct n; [reflexivity|]. cbn [nth]. change (skipn (S n) (x :: l)) with (skipn n l). change (skipn (S (S n)) (x :: l)) with (skipn (S n) l).
    apply IH. cbn in L. lia.
  Qed.
  Lemma drop_nil i : zlen input <= i -> skipn (Z.to_nat i) input = [].
  Proof. intros H. apply skipn_all2. unfold zlen in H. lia. Qed.

  Lemma avail_ok g : inv g ->
    match skipn (Z.to_nat (g_pos g)) input with
    | [] => exists g', avail input slack g = BFail g' /\ inv g' /\ alike g g'
    | c :: s => exists g', avail input slack g = BMatch g' /\ inv g' /\ alike g g' /\ cur g' = c /\ inv (adv g') /\ skipn (Z.to_nat (g_pos (adv g'))) input = s
    end.
  Proof.
    intros I. unfold avail.
    assert (C : forall g', inv g' -> alike g g' -> g_pos g' < g_lim g' -> cur g' = znth input (g_pos g) /\ inv (adv g') /\ g_pos (adv g') = g_pos g + 1).
    { intros g' I' (E & _) L. destruct I' as [Jl Jm Jb Jp Jg Je Jy Jt]. unfold cur. split; [rewrite Jb by lia; f_equal; exact E|].
      split; [|cbn; lia]. constructor; cbn [adv set_pos g_buf g_lim g_pos g_beg g_end g_ths g_yy]; try assumption; lia. }
    assert (I' := I). destruct I' as [Jl Jm Jb Jp Jg Je Jy Jt].
    destruct (Z_lt_le_dec (g_pos g) (zlen input)) as [L|L].
    - rewrite drop_cons by lia. destruct (g_lim g <=? g_pos g) eqn:E.
      + destruct (refill_ok g I ltac:(lia)) as [K _]. destruct (K L) as (g' & -> & I' & Al & Lt).
        exists g'. destruct (C g' I' Al Lt) as (C1 & C2 & C3). rewrite C3. auto 10.
      + exists g. assert (Al : alike g g) by (repeat split; lia). destruct (C g I Al ltac:(lia)) as (C1 & C2 & C3). rewrite C3. auto 10.
    - rewrite drop_nil by lia. replace (g_lim g <=? g_pos g) with true by lia.
      destruct (refill_ok g I ltac:(lia)) as [_ K]. exact (K L).
  Qed.

  (** the thunks *)
  Definition resolve (t : bth A) : thunk A :=
    match t with BPush n => TPush n | BPop n => TPop n | BSet k => TSet k | BAct a b e => TAct a (yytext input b e) end.
  Definition be_of (g : greg) : list Z * list Z := (skipn (Z.to_nat (g_beg g)) input, skipn (Z.to_nat (g_end g)) input).
  Definition rest_of (g : greg) : list Z := skipn (Z.to_nat (g_pos g)) input.
  Lemma text_of_be g : inv g -> text_of (be_of g) = yytext input (g_beg g) (g_end g).
  Proof.
    intros [Jl Jm Jb Jp Jg Je Jy Jt]. unfold text_of, be_of, yytext. cbn [fst snd]. f_equal. rewrite !skipn_length. unfold zlen in *. lia.
  Qed.
  (** the two outcomes agree *)
  Definition same (g : greg) (o : option (outcome A)) (b : bres A) : Prop :=
    match o, b with
    | None, BMore => True
    | Some (Match s be t), BMatch g' => inv g' /\ s = rest_of g' /\ be = be_of g' /\ g_lim g <= g_lim g' /\
        exists t', g_ths g' = g_ths g ++ t' /\ map resolve t' = t
    | Some (Fail be), BFail g' => inv g' /\ be = be_of g' /\ g_lim g <= g_lim g' /\ exists t', g_ths g' = g_ths g ++ t'
    | _, _ => False
    end.
  Lemma restore_inv g g' t : inv g -> inv g' -> g_lim g <= g_lim g' -> g_ths g' = g_ths g ++ t ->
    inv (restore g g') /\ rest_of (restore g g') = rest_of g /\ be_of (restore g g') = be_of g' /\ g_ths (restore g g') = g_ths g /\ g_lim (restore g g') = g_lim g'.
  Proof.
    intros [Jl Jm Jb Jp Jg Je Jy Jt] [Kl Km Kb Kp Kg Ke Ky Kt] L T. unfold restore, rest_of, be_of.
    cbn [set_ths set_pos g_buf g_lim g_pos g_beg g_end g_ths g_yy]. split; [constructor; cbn; try assumption; try lia; apply all_in_firstn, Kt|].
    repeat split. rewrite T, firstn_app, Nat.sub_diag, firstn_all. cbn. apply app_nil_r.
  Qed.
  Lemma inv_yydo t g : inv g -> in_buf (g_lim g) t -> inv (yydo t g).
  Proof. intros [Jl Jm Jb Jp Jg Je Jy Jt] Q. constructor; cbn; try assumption. apply Forall_app. auto. Qed.
  Lemma rest_yydo t g : rest_of (yydo t g) = rest_of g. Proof. reflexivity. Qed.
  Lemma be_yydo t g : be_of (yydo t g) = be_of g. Proof. reflexivity. Qed.
  Lemma be_alike g g' : alike g g' -> be_of g' = be_of g.
  Proof. intros (_ & B & E & _). unfold be_of. rewrite B, E. reflexivity. Qed.

  Ltac cj := repeat match goal with |- _ /\ _ => split end; try reflexivity.
  Lemma one_char (f : Z -> bool) g : inv g ->
    same g (match rest_of g with x :: s => if f x then Some (Match s (be_of g) []) else Some (Fail (be_of g)) | [] => Some (Fail (be_of g)) end)
      (match avail input slack g with BMatch g => if f (cur g) then BMatch (adv g) else BFail g | r => r end).
  Proof.
    intros I. pose proof (avail_ok g I) as K. fold (rest_of g) in K. destruct (rest_of g) as [|c s].
    - destruct K as (g' & -> & I' & Al). cbn [same]. rewrite (be_alike _ _ Al). destruct Al as (_ & _ & _ & T & L).
      cj; [exact I' | exact L|]. exists []. rewrite app_nil_r. exact T.
    - destruct K as (g' & -> & I' & Al & -> & Ia & Er). assert (B := be_alike _ _ Al). destruct Al as (_ & _ & _ & T & L).
      destruct (f c); cbn [same].
      + split; [exact Ia|]. split; [symmetry; exact Er|]. split; [symmetry; exact B|]. split; [exact L|].
        exists []. rewrite app_nil_r. split; [exact T | reflexivity].
      + split; [exact I'|]. split; [symmetry; exact B|]. split; [exact L|]. exists []. rewrite app_nil_r. exact T.
  Qed.
  Lemma string_ok l : forall g0 g, inv g0 -> inv g -> g_lim g0 <= g_lim g -> g_ths g = g_ths g0 -> be_of g = be_of g0 ->
    same g0 (match match_str l (rest_of g) with Some s' => Some (Match s' (be_of g0) []) | None => Some (Fail (be_of g0)) end)
      (matchString input slack (g_pos g0) l g).
  Proof.
    induction l as [|c l IH]; intros g0 g I0 I L T B; cbn [match_str matchString].
    - cbn [same]. split; [exact I|]. split; [reflexivity|]. split; [symmetry; exact B|]. split; [exact L|]. exists []. rewrite app_nil_r. auto.
    - pose proof (avail_ok g I) as K. fold (rest_of g) in K. destruct (rest_of g) as [|x s].
      + destruct K as (g' & -> & I' & Al). cbn [same]. assert (B' := be_alike _ _ Al). destruct Al as (_ & _ & _ & T' & L').
        split; [exact I'|]. split; [congruence|]. split; [lia|]. exists []. rewrite app_nil_r. congruence.
      + destruct K as (g' & -> & I' & Al & -> & Ia & Er). assert (B' := be_alike _ _ Al). destruct Al as (_ & _ & _ & T' & L').
        destruct (x =? c).
        * specialize (IH g0 (adv g') I0 Ia). unfold rest_of in IH at 1. rewrite Er in IH. apply IH.
          -- cbn. lia.
          -- cbn. congruence.
          -- change (be_of (adv g')) with (be_of g'). congruence.
        * cbn [same]. destruct I' as [Kl Km Kb Kp Kg Ke Ky Kt]. destruct I0 as [Jl Jm Jb Jp Jg Je Jy Jt].
          split; [constructor; cbn; try assumption; lia|]. split; [change (be_of (set_pos (g_pos g0) g')) with (be_of g'); congruence|].
          split; [cbn; lia|]. exists []. cbn. rewrite app_nil_r. congruence.
  Qed.

  Theorem runb_same : forall n e g, inv g -> same g (run n e (rest_of g) (be_of g)) (runb n e g).
  Proof.
    induction n as [|n IH]; intros e g I; [exact Logic.I|]. destruct e; cbn [PegModel.run BufModel.runb].
    - exact (one_char (fun x => x =? c) g I).
    - apply string_ok; try assumption; [lia | reflexivity | reflexivity].
    - exact (one_char f g I).
    - pose proof (one_char (fun _ => true) g I) as K. cbv beta iota in K. exact K.
    - pose proof (IH e1 g I) as K1. unfold same in K1. destruct (run n e1 (rest_of g) (be_of g)) as [[s1 be1 t1|be1]|], (runb n e1 g) as [g1|g1| |]; try contradiction; try exact K1.
      destruct K1 as (I1 & -> & -> & L1 & t1' & T1 & <-). pose proof (IH e2 g1 I1) as K2. unfold same in K2 |- *.
      destruct (run n e2 (rest_of g1) (be_of g1)) as [[s2 be2 t2|be2]|], (runb n e2 g1) as [g2|g2| |]; try contradiction; try exact K2.
      + destruct K2 as (I2 & -> & -> & L2 & t2' & T2 & <-). cj; try assumption; [lia|]. exists (t1' ++ t2').
        rewrite T2, T1, map_app, app_assoc. auto.
      + destruct K2 as (I2 & -> & L2 & t2' & T2). cj; try assumption; [lia|]. exists (t1' ++ t2'). rewrite T2, T1, app_assoc. reflexivity.
    - pose proof (IH e1 g I) as K1. unfold same in K1. destruct (run n e1 (rest_of g) (be_of g)) as [[s1 be1 t1|be1]|], (runb n e1 g) as [g1|g1| |]; try contradiction; try exact K1.
      destruct K1 as (I1 & -> & L1 & t1' & T1). destruct (restore_inv _ _ _ I I1 L1 T1) as (Ir & Rr & Br & Tr & Lr).
      pose proof (IH e2 _ Ir) as K2. rewrite Rr, Br in K2. unfold same in *.
      destruct (run n e2 (rest_of g) (be_of g1)) as [[s2 be2 t2|be2]|], (runb n e2 (restore g g1)) as [g2|g2| |]; try contradiction; try exact K2.
      + destruct K2 as (I2 & -> & -> & L2 & t2' & T2 & <-). cj; try assumption; [lia|]. exists t2'. rewrite T2, Tr. auto.
      + destruct K2 as (I2 & -> & L2 & t2' & T2). cj; try assumption; [lia|]. exists t2'. rewrite T2, Tr. reflexivity.
    - pose proof (IH e g I) as K1. unfold same in K1. destruct (run n e (rest_of g) (be_of g)) as [[s1 be1 t1|be1]|], (runb n e g) as [g1|g1| |]; try contradiction; try exact K1.
      + destruct K1 as (I1 & -> & -> & L1 & t1' & T1 & <-). pose proof (IH (Star e) g1 I1) as K2. unfold same in K2 |- *.
        destruct (run n (Star e) (rest_of g1) (be_of g1)) as [[s2 be2 t2|be2]|], (runb n (Star e) g1) as [g2|g2| |]; try contradiction; try exact K2.
        * destruct K2 as (I2 & -> & -> & L2 & t2' & T2 & <-). cj; try assumption; [lia|]. exists (t1' ++ t2').
          rewrite T2, T1, map_app, app_assoc. auto.
        * destruct K2 as (I2 & -> & L2 & t2' & T2). cj; try assumption; [lia|]. exists (t1' ++ t2'). rewrite T2, T1, app_assoc. reflexivity.
      + destruct K1 as (I1 & -> & L1 & t1' & T1). destruct (restore_inv _ _ _ I I1 L1 T1) as (Ir & Rr & Br & Tr & Lr).
        unfold same. rewrite Rr, Br, Tr, Lr. cj; try assumption. exists []. rewrite app_nil_r. auto.
    - exact (IH (Seq e (Star e)) g I).
    - pose proof (IH e g I) as K1. unfold same in K1. destruct (run n e (rest_of g) (be_of g)) as [[s1 be1 t1|be1]|], (runb n e g) as [g1|g1| |]; try contradiction; try exact K1.
      destruct K1 as (I1 & -> & L1 & t1' & T1). destruct (restore_inv _ _ _ I I1 L1 T1) as (Ir & Rr & Br & Tr & Lr).
      unfold same. rewrite Rr, Br, Tr, Lr. cj; try assumption. exists []. rewrite app_nil_r. auto.
    - pose proof (IH e g I) as K1. unfold same in K1. destruct (run n e (rest_of g) (be_of g)) as [[s1 be1 t1|be1]|], (runb n e g) as [g1|g1| |]; try contradiction; try exact K1.
      + destruct K1 as (I1 & -> & -> & L1 & t1' & T1 & <-). unfold same. cj; try assumption. exists t1'. exact T1.
      + destruct K1 as (I1 & -> & L1 & t1' & T1). destruct (restore_inv _ _ _ I I1 L1 T1) as (Ir & Rr & Br & Tr & Lr).
        unfold same. rewrite Rr, Br, Tr, Lr. cj; try assumption. exists []. rewrite app_nil_r. auto.
    - cbv zeta. set (g1 := if nvars r =? 0 then g else yydo (BPush (nvars r)) g).
      assert (G1 : inv g1 /\ rest_of g1 = rest_of g /\ be_of g1 = be_of g /\ g_lim g1 = g_lim g /\ exists p, g_ths g1 = g_ths g ++ p /\ map resolve p = if nvars r =? 0 then [] else [TPush (nvars r)]).
      { unfold g1. destruct (nvars r =? 0); [cj; try assumption; exists []; rewrite app_nil_r; auto|].
        split; [apply inv_yydo; [exact I | exact Logic.I]|]. cj. eexists. split; reflexivity. }
      destruct G1 as (I1 & R1 & B1 & L1 & p & T1 & M1). pose proof (IH (rules r) g1 I1) as K. rewrite R1, B1 in K. unfold same in K.
      destruct (run n (rules r) (rest_of g) (be_of g)) as [[s2 be2 t2|be2]|], (runb n (rules r) g1) as [g2|g2| |]; try contradiction; try exact Logic.I.
      + destruct K as (I2 & -> & -> & L2 & t2' & T2 & <-). unfold same, framed. destruct (nvars r =? 0).
        * cj; try assumption; try lia. destruct p; [|discriminate M1]. exists t2'. rewrite T2, T1, app_nil_r. auto.
        * split; [apply inv_yydo; [exact I2 | exact Logic.I]|]. rewrite rest_yydo, be_yydo. cj; [cbn; lia|]. exists (p ++ t2' ++ [BPop (nvars r)]).
          cbn [yydo set_ths g_ths]. rewrite T2, T1, !map_app, M1, <- !app_assoc. auto.
      + destruct K as (I2 & -> & L2 & t2' & T2). rewrite T1, <- app_assoc in T2.
        destruct (restore_inv g g2 _ I I2 ltac:(lia) T2) as (Ir & Rr & Br & Tr & Lr). unfold same. rewrite Br, Tr, Lr. cj; try assumption; [lia|].
        exists []. rewrite app_nil_r. reflexivity.
    - pose proof (IH (Rul r) g I) as K1. unfold same in K1. destruct (run n (Rul r) (rest_of g) (be_of g)) as [[s1 be1 t1|be1]|], (runb n (Rul r) g) as [g1|g1| |]; try contradiction; try exact K1.
      destruct K1 as (I1 & -> & -> & L1 & t1' & T1 & <-). unfold same. split; [apply inv_yydo; [exact I1 | exact Logic.I]|]. split; [reflexivity|]. split; [reflexivity|]. split; [exact L1|].
      exists (t1' ++ [BSet k]). cbn [yydo set_ths g_ths]. rewrite T1, map_app, <- app_assoc. auto.
    - unfold same. split; [apply inv_yydo; [exact I | destruct I; cbn; lia]|]. split; [reflexivity|]. split; [reflexivity|]. split; [cbn; lia|].
      exists [BAct a (g_beg g) (g_end g)]. split; [reflexivity|]. cbn [map resolve]. rewrite (text_of_be g I). reflexivity.
    - unfold same. destruct I as [Jl Jm Jb Jp Jg Je Jy Jt]. split; [constructor; cbn; try assumption; lia|]. split; [reflexivity|]. split; [reflexivity|]. split; [cbn; lia|]. exists []. rewrite app_nil_r. auto.
    - unfold same. destruct I as [Jl Jm Jb Jp Jg Je Jy Jt]. split; [constructor; cbn; try assumption; lia|]. split; [reflexivity|]. split; [reflexivity|]. split; [cbn; lia|]. exists []. rewrite app_nil_r. auto.
  Qed.
  Lemma start_inv : inv start.
  Proof.
    pose proof (zlen_nonneg input). assert (L : zlen (g_buf (@start A)) = 16384) by (unfold start; cbn [g_buf]; apply zlen_repeat).
    constructor; rewrite ?L; cbn [start g_lim g_pos g_beg g_end g_yy g_ths]; try lia. constructor.
  Qed.
End Buf.
