(** Where the code of each operation lies in the buffer that the generator
    leaves, and which displacements its jumps have. *)
From Coq Require Import ZifyBool.
From Verif Require Import Base Arr GArr WordModel AsmModel ObjModel PropIvf CompileModel X86Model JitModel JitProofs.
Ltac Zify.zify_post_hook ::= Z.div_mod_to_equations.

Section Layout.
  Context (addr : cfun -> Z) (regs need : Z).
  Notation jop := (jit_op addr regs need).
  Definition bytes (i : instr) (d : Z) : list Z := match jop i d with Some b => b | None => [] end.
  Definition blen (i : instr) : Z := zlen (bytes i 0).
  (** the displacement is the last four bytes *)
  Lemma jop_jump i rel : jump_of i = Some rel -> exists X, forall d, jop i d = Some (X ++ ASMI d).
  Proof.
    destruct i as [o a b]. unfold jump_of. cbn [ic ia ib].
    destruct o; try discriminate; intros _; cbn [jit_op ic ia ib].
    - eexists. intros d. reflexivity.
    - exists (mov_rbp 139 a ++ [72; 131; 248; PN_FALSE] ++ [116; 10] ++ [72; 133; 192] ++ [116; 5] ++ [233]).
      intros d. rewrite <- !app_assoc. reflexivity.
    - exists (mov_rbp 139 a ++ [72; 131; 248; PN_FALSE] ++ [116; 5] ++ [72; 133; 192] ++ [117; 5] ++ [233]).
      intros d. rewrite <- !app_assoc. reflexivity.
  Qed.
  Lemma jop_nojump i d : jump_of i = None -> jop i d = jop i 0.
  Proof. destruct i as [o a b]. unfold jump_of. cbn [ic ia ib]. destruct o; try discriminate; intros _; reflexivity. Qed.
  Lemma zlen_asmi d : zlen (ASMI d) = 4.
  Proof. apply zlen_le. Qed.
  Lemma blen_d i d : zlen (bytes i d) = blen i.
  Proof.
    unfold blen, bytes. destruct (jump_of i) eqn:J.
    - destruct (jop_jump i z J) as [Y E]. rewrite !E, !zlen_app, !zlen_asmi. reflexivity.
    - rewrite (jop_nojump i d J). reflexivity.
  Qed.

  (** code of a list of operations, jump number [pos] with displacement [dl pos] *)
  Fixpoint emit (is : list instr) (pos : Z) (dl : Z -> Z) : list Z :=
    match is with [] => [] | i :: is => bytes i (dl pos) ++ emit is (pos + 1) dl end.
  Lemma emit_app a b pos dl : emit (a ++ b) pos dl = emit a pos dl ++ emit b (pos + zlen a) dl.
  Proof.
    revert pos. induction a as [|i a IH]; intros pos; cbn [app emit].
    - change (zlen (@nil instr)) with 0. rewrite Z.add_0_r. reflexivity.
    - rewrite IH, zlen_cons', <- app_assoc. do 2 f_equal. f_equal. lia.
  Qed.
  Lemma emit_ext is pos d1 d2 : (forall k, pos <= k < pos + zlen is -> d1 k = d2 k) -> emit is pos d1 = emit is pos d2.
  Proof.
    revert pos. induction is as [|i is IH]; intros pos H; cbn [emit]; [reflexivity|].
    rewrite zlen_cons' in H. pose proof (zlen_nonneg is). rewrite (H pos) by lia. f_equal. apply IH. intros. apply H. lia.
  Qed.
  Definition tlen (is : list instr) : Z := zlen (emit is 0 (fun _ => 0)).
  Lemma emit_len is pos dl : zlen (emit is pos dl) = tlen is.
  Proof.
    unfold tlen. assert (K : forall p d1 q d2, zlen (emit is p d1) = zlen (emit is q d2)); [|apply K].
    induction is as [|i is IH]; intros p d1 q d2; cbn [emit]; [reflexivity|].
    rewrite !zlen_app, !blen_d. f_equal. apply IH.
  Qed.
  Lemma tlen_app a b : tlen (a ++ b) = tlen a + tlen b.
  Proof. unfold tlen at 1. rewrite emit_app, zlen_app, !emit_len. reflexivity. Qed.
  Lemma tlen_one i : tlen [i] = blen i.
  Proof. unfold tlen. cbn [emit]. rewrite app_nil_r. reflexivity. Qed.

  Context (is : list instr) (pro : list Z).
  (** address of operation [k] *)
  Definition off (k : Z) : Z := zlen pro + tlen (firstn (Z.to_nat k) is).
  Definition disp (j rel : Z) : Z := off (j + rel + 1) - off (j + 1).
  Lemma firstn_S k i : gnth is k = Some i -> firstn (Z.to_nat (k + 1)) is = firstn (Z.to_nat k) is ++ [i].
  Proof.
    intros E. pose proof (gnth_Some _ _ _ E). unfold gnth in E. destruct (k <? 0) eqn:N; [lia|].
    replace (Z.to_nat (k + 1)) with (S (Z.to_nat k)) by lia.
    revert E. generalize (Z.to_nat k). clear. intros n. revert n. induction is as [|x l IH]; intros [|n] E; cbn in *; try discriminate.
    - injection E as ->. reflexivity.
    - f_equal. apply IH. exact E.
  Qed.
  Lemma off_S k i : gnth is k = Some i -> off (k + 1) = off k + blen i.
  Proof. intros E. unfold off. rewrite (firstn_S k i E), tlen_app, tlen_one. lia. Qed.

  Definition updd (dl : Z -> Z) (j d : Z) : Z -> Z := fun k => if k =? j then d else dl k.
  (** overwriting the displacement of jump [j] *)
  Lemma patch_emit dn rest j i rel dl d : is = dn ++ rest -> gnth is j = Some i -> 0 <= j < zlen dn -> jump_of i = Some rel ->
    patch4 (pro ++ emit dn 0 dl) (off (j + 1) - 4) d = pro ++ emit dn 0 (updd dl j d).
  Proof.
    intros Eis Ei Hj J. destruct (jop_jump i rel J) as [Y EX].
    assert (Ed : dn = firstn (Z.to_nat j) dn ++ [i] ++ skipn (Z.to_nat (j + 1)) dn).
    { assert (E0 : gnth dn j = Some i) by (rewrite <- Ei, Eis; symmetry; apply gnth_app1; lia).
      unfold gnth in E0. destruct (j <? 0) eqn:N; [lia|]. replace (Z.to_nat (j + 1)) with (S (Z.to_nat j)) by lia.
      revert E0. generalize (Z.to_nat j). clear. intros n. revert dn. induction n as [|n IH]; intros [|x l] E; cbn in *; try discriminate.
      - injection E as ->. reflexivity.
      - f_equal. apply IH. exact E. }
    set (a := firstn (Z.to_nat j) dn) in *. set (c := skipn (Z.to_nat (j + 1)) dn) in *.
    assert (La : zlen a = j) by (unfold a, zlen in *; rewrite firstn_length; lia).
    assert (Ea : firstn (Z.to_nat j) is = a).
    { rewrite Eis. unfold a. rewrite firstn_app. unfold zlen in Hj.
      replace (Z.to_nat j - length dn)%nat with O by lia. cbn [firstn]. apply app_nil_r. }
    assert (Eo : off (j + 1) - 4 = zlen (pro ++ emit a 0 dl ++ Y)).
    { rewrite (off_S j i Ei). unfold off. rewrite Ea. unfold blen, bytes. rewrite EX, !zlen_app, zlen_asmi, emit_len. lia. }
    rewrite Ed, !emit_app, La. cbn [emit zlen Z.add app]. change (zlen [i]) with 1. rewrite !app_nil_r.
    unfold bytes. rewrite !EX.
    rewrite (emit_ext a 0 (updd dl j d) dl), (emit_ext c (0 + j + 1) (updd dl j d) dl).
    2,3: intros k Hk; unfold updd; destruct (k =? j) eqn:Ek; [lia|reflexivity].
    replace (updd dl j d (0 + j)) with d by (unfold updd; replace (0 + j =? j) with true by lia; reflexivity).
    rewrite Eo. unfold patch4. pose proof (zlen_nonneg (pro ++ emit a 0 dl ++ Y)) as Np.
    replace (pro ++ emit a 0 dl ++ (Y ++ ASMI (dl (0 + j))) ++ emit c (0 + j + 1) dl)
      with ((pro ++ emit a 0 dl ++ Y) ++ ASMI (dl (0 + j)) ++ emit c (0 + j + 1) dl) by (rewrite <- !app_assoc; reflexivity).
    replace (Z.to_nat (zlen (pro ++ emit a 0 dl ++ Y) + 4)) with (length ((pro ++ emit a 0 dl ++ Y) ++ ASMI (dl (0 + j)))).
    2:{ rewrite app_length. unfold zlen, ASMI. rewrite le_bytes_len. lia. }
    rewrite (app_assoc (pro ++ emit a 0 dl ++ Y) (ASMI _)) at 2.
    rewrite skipn_app_len.
    replace (Z.to_nat (zlen (pro ++ emit a 0 dl ++ Y))) with (length (pro ++ emit a 0 dl ++ Y)) by (unfold zlen; lia).
    rewrite firstn_app, firstn_all, Nat.sub_diag. cbn [firstn]. rewrite app_nil_r, <- !app_assoc. reflexivity.
  Qed.

  Definition jmp_at (j rel : Z) : Prop := exists i, gnth is j = Some i /\ jump_of i = Some rel.
  Definition relj (j : Z) : Z :=
    match gnth is j with Some i => match jump_of i with Some r => r | None => 0 end | None => 0 end.
  Lemma relj_at j rel : jmp_at j rel -> relj j = rel.
  Proof. intros (i & E1 & E2). unfold relj. rewrite E1, E2. reflexivity. Qed.
  Definition entry (j : Z) : Z * Z := (off (j + 1) - 4, j + relj j + 1).

  Lemma off_dn dn rest : is = dn ++ rest -> off (zlen dn) = zlen pro + tlen dn.
  Proof.
    intros E. unfold off. rewrite E. unfold zlen. rewrite Nat2Z.id, firstn_app, firstn_all, Nat.sub_diag.
    cbn [firstn]. rewrite app_nil_r. reflexivity.
  Qed.
  Lemma patch_all_emit dn rest : is = dn ++ rest -> forall js dl,
    Forall (fun j => 0 <= j < zlen dn /\ exists rel, jmp_at j rel) js ->
    exists dl', patch_all (zlen dn) (map entry js) (pro ++ emit dn 0 dl) = pro ++ emit dn 0 dl' /\
      forall j, dl' j = if existsb (Z.eqb j) js && (j + relj j + 1 =? zlen dn) then disp j (relj j) else dl j.
  Proof.
    intros Eis. induction js as [|j js IH]; intros dl F.
    - exists dl. split; [reflexivity|]. intros j. reflexivity.
    - inversion F as [|? ? [F1 (rel & Jr)] F2]; subst. cbn [map patch_all entry fst snd].
      unfold entry at 1. pose proof (relj_at j rel Jr) as Er.
      set (dl1 := if j + relj j + 1 =? zlen dn then updd dl j (disp j (relj j)) else dl).
      replace (if j + relj j + 1 =? zlen dn
               then patch4 (pro ++ emit dn 0 dl) (off (j + 1) - 4) (zlen (pro ++ emit dn 0 dl) - (off (j + 1) - 4 + 4))
               else pro ++ emit dn 0 dl) with (pro ++ emit dn 0 dl1).
      2:{ unfold dl1. destruct (j + relj j + 1 =? zlen dn) eqn:Et; [|reflexivity].
          destruct Jr as (i & E1 & E2). rewrite (patch_emit dn rest j i rel) by (assumption || lia).
          do 3 f_equal. rewrite zlen_app, emit_len. unfold disp.
          replace (j + relj j + 1) with (zlen dn) by lia. rewrite (off_dn dn rest Eis). lia. }
      destruct (IH dl1 F2) as (dl' & P1 & P2). exists dl'. split; [exact P1|].
      intros k. rewrite P2. cbn [existsb]. unfold dl1.
      destruct (existsb (Z.eqb k) js) eqn:Ex; cbn [andb orb].
      + rewrite orb_true_r. cbn [andb]. destruct (k + relj k + 1 =? zlen dn) eqn:Ek; [reflexivity|].
        destruct (j + relj j + 1 =? zlen dn) eqn:Ej; [|reflexivity].
        unfold updd. destruct (k =? j) eqn:Ekj; [|reflexivity]. assert (k = j) by lia. subst k. congruence.
      + rewrite orb_false_r. destruct (k =? j) eqn:Ekj; cbn [andb].
        * assert (k = j) by lia. subst k. destruct (j + relj j + 1 =? zlen dn) eqn:Ej; [|reflexivity].
          unfold updd. rewrite Ekj. reflexivity.
        * destruct (j + relj j + 1 =? zlen dn); [|reflexivity]. unfold updd. rewrite Ekj. reflexivity.
  Qed.

  (** the state of the generator after [dn] *)
  Record lay (dn : list instr) (buf offs : list Z) (js : list Z) (dl : Z -> Z) : Prop := mkLay {
    l_buf : buf = pro ++ emit dn 0 dl;
    l_off : zlen offs = zlen dn; l_offk : forall k, 0 <= k < zlen dn -> gnth offs k = Some (off k);
    l_js : forall j, In j js <-> 0 <= j < zlen dn /\ exists rel, jmp_at j rel /\ 0 <= rel;
    l_dl : forall j rel, 0 <= j < zlen dn -> jmp_at j rel -> j + rel + 1 < zlen dn \/ rel < 0 -> dl j = disp j rel }.

  Lemma bytes_some i d bs : jop i d = Some bs -> bytes i d = bs.
  Proof. unfold bytes. intros ->. reflexivity. Qed.

  Lemma lay_patch dn i rest buf offs js dl : is = dn ++ i :: rest -> lay dn buf offs js dl ->
    exists dl', patch_all (zlen dn) (map entry js) buf = pro ++ emit dn 0 dl' /\
      forall j rel, 0 <= j < zlen dn -> jmp_at j rel -> j + rel + 1 < zlen dn + 1 \/ rel < 0 -> dl' j = disp j rel.
  Proof.
    intros E [L1 L2 L3 L4 L5]. subst buf.
    destruct (patch_all_emit dn (i :: rest) E js dl) as (dl' & P1 & P2).
    { apply Forall_forall. intros j Ij. apply L4 in Ij as (H & rel & H1 & H2). split; [exact H|]. eauto. }
    exists dl'. split; [exact P1|]. intros j rel Hj Hr Ht. rewrite P2, (relj_at j rel Hr).
    destruct (j + rel + 1 =? zlen dn) eqn:Et.
    - assert (In j js) as Ij.
      { apply L4. split; [exact Hj|]. exists rel. split; [exact Hr|lia]. }
      replace (existsb (Z.eqb j) js) with true; [reflexivity|].
      symmetry. apply existsb_exists. exists j. split; [exact Ij|lia].
    - rewrite andb_false_r. apply L5; [exact Hj|exact Hr|lia].
  Qed.

  Theorem loop_layout : forall rest dn buf offs js dl code, is = dn ++ rest -> lay dn buf offs js dl ->
    jit_loop addr regs need rest (zlen dn) buf offs (map entry js) = Ok code ->
    exists dl', code = pro ++ emit is 0 dl' /\
      forall j rel, 0 <= j < zlen is -> jmp_at j rel -> j + rel + 1 < zlen is -> dl' j = disp j rel.
  Proof.
    induction rest as [|i rest IH]; intros dn buf offs js dl code E L H.
    - cbn [jit_loop] in H. injection H as <-. rewrite app_nil_r in E. subst dn. exists dl.
      destruct L as [L1 L2 L3 L4 L5]. split; [exact L1|]. intros. apply L5; auto.
    - cbn [jit_loop] in H. destruct (JUMPS_MAX <=? zlen dn) eqn:Ej; [discriminate|].
      destruct (lay_patch dn i rest buf offs js dl E L) as (dl1 & P1 & P2). rewrite P1 in H.
      assert (Gi : gnth is (zlen dn) = Some i).
      { rewrite E. unfold gnth, zlen. destruct (_ <? 0) eqn:N; [lia|]. rewrite Nat2Z.id, nth_error_app2, Nat.sub_diag by lia. reflexivity. }
      assert (Lb : zlen buf = off (zlen dn)).
      { rewrite (l_buf _ _ _ _ _ L), zlen_app, emit_len, (off_dn dn (i :: rest) E). reflexivity. }
      assert (Lb1 : zlen (pro ++ emit dn 0 dl1) = off (zlen dn)).
      { rewrite zlen_app, emit_len, (off_dn dn (i :: rest) E). reflexivity. }
      assert (E' : is = (dn ++ [i]) ++ rest) by (rewrite <- app_assoc; exact E).
      assert (Ln : zlen (dn ++ [i]) = zlen dn + 1) by (rewrite zlen_app; reflexivity).
      pose proof (zlen_nonneg dn) as Nd.
      rewrite Lb in H.
      assert (Ofs : zlen (offs ++ [off (zlen dn)]) = zlen (dn ++ [i])) by (rewrite Ln, zlen_app, (l_off _ _ _ _ _ L); reflexivity).
      assert (Ofk : forall k, 0 <= k < zlen (dn ++ [i]) -> gnth (offs ++ [off (zlen dn)]) k = Some (off k)).
      { intros k Hk. rewrite Ln in Hk. pose proof (l_off _ _ _ _ _ L) as L2. destruct (Z_lt_le_dec k (zlen dn)).
        - rewrite gnth_app1 by lia. apply (l_offk _ _ _ _ _ L). lia.
        - assert (k = zlen dn) by lia. subst k. unfold gnth. destruct (zlen dn <? 0) eqn:N; [lia|].
          rewrite nth_error_app2 by (unfold zlen in *; lia). replace (Z.to_nat (zlen dn) - length offs)%nat with O by (unfold zlen in *; lia).
          reflexivity. }
      (* appending the block of [i] with displacement [d] *)
      assert (Em : forall d, (pro ++ emit dn 0 dl1) ++ bytes i d = pro ++ emit (dn ++ [i]) 0 (updd dl1 (zlen dn) d)).
      { intros d. rewrite emit_app. cbn [emit]. rewrite app_nil_r, <- app_assoc. f_equal. f_equal.
        - apply emit_ext. intros k Hk. unfold updd. replace (k =? zlen dn) with false by lia. reflexivity.
        - unfold updd. replace (0 + zlen dn =? zlen dn) with true by lia. reflexivity. }
      assert (Old : forall d j rel, 0 <= j < zlen dn -> jmp_at j rel -> j + rel + 1 < zlen (dn ++ [i]) \/ rel < 0 ->
         updd dl1 (zlen dn) d j = disp j rel).
      { intros d j rel Hj Hr Ht. unfold updd. replace (j =? zlen dn) with false by lia. apply P2; auto. rewrite <- Ln. exact Ht. }
      rewrite <- Ln in H.
      destruct (jump_of i) as [rel|] eqn:Jo.
      + assert (Ja : jmp_at (zlen dn) rel) by (exists i; auto).
        destruct (jop_jump i rel Jo) as [Y EX]. rewrite EX in H.
        assert (Eat : zlen (pro ++ emit dn 0 dl1) + zlen (Y ++ ASMI 0) - 4 = off (zlen dn + 1) - 4).
        { rewrite Lb1, (off_S _ i Gi). unfold blen, bytes. rewrite EX. reflexivity. }
        rewrite Eat in H.
        destruct (zlen dn <=? zlen dn + rel) eqn:Ef.
        * destruct (JUMPS_MAX <=? zlen (map entry js)) eqn:Em2; [discriminate|].
          replace (map entry js ++ [(off (zlen dn + 1) - 4, zlen dn + rel + 1)]) with (map entry (js ++ [zlen dn])) in H.
          2:{ rewrite map_app. cbn [map]. unfold entry at 2. rewrite (relj_at _ _ Ja). reflexivity. }
          rewrite <- (bytes_some i 0 _ (EX 0)), Em in H.
          eapply IH in H; [exact H|exact E'|]. split; auto.
          -- intros j. rewrite in_app_iff. cbn [In]. rewrite (l_js _ _ _ _ _ L), Ln. split.
             ++ intros [(Hj & r & H1 & H2)|[<-|[]]]; [split; [lia|eauto]|]. split; [lia|]. exists rel. split; [exact Ja|lia].
             ++ intros (Hj & r & H1 & H2). destruct (Z.eq_dec j (zlen dn)) as [->|N]; [right; left; reflexivity|].
                left. split; [lia|eauto].
          -- intros j r Hj Hr Ht. destruct (Z.eq_dec j (zlen dn)) as [->|N].
             ++ pose proof (relj_at _ _ Ja). pose proof (relj_at _ _ Hr). lia.
             ++ apply Old; [lia|exact Hr|exact Ht].
        * assert (Eo : forall x, grd (offs ++ [off (zlen dn)]) (zlen dn + rel + 1) = Ok x -> x = off (zlen dn + rel + 1)).
          { intros x Hx. unfold grd in Hx. destruct (gnth (offs ++ [off (zlen dn)]) (zlen dn + rel + 1)) as [z|] eqn:Gx; [|discriminate Hx].
            assert (z = x) by congruence. subst z. pose proof (gnth_Some _ _ _ Gx) as Hr. rewrite Ofs in Hr. rewrite (Ofk _ Hr) in Gx. congruence. }
          destruct (grd _ _) as [o| |] eqn:Go; cbn [bind] in H; try discriminate. specialize (Eo o eq_refl). subst o.
          rewrite EX in H. rewrite <- (bytes_some i _ _ (EX _)), Em in H.
          eapply IH in H; [exact H|exact E'|]. split; auto.
          -- intros j. rewrite (l_js _ _ _ _ _ L), Ln. split.
             ++ intros (Hj & r & H1 & H2). split; [lia|eauto].
             ++ intros (Hj & r & H1 & H2). destruct (Z.eq_dec j (zlen dn)) as [->|N].
                ** pose proof (relj_at _ _ Ja). pose proof (relj_at _ _ H1). lia.
                ** split; [lia|eauto].
          -- intros j r Hj Hr Ht. destruct (Z.eq_dec j (zlen dn)) as [->|N].
             ++ pose proof (relj_at _ _ Ja). pose proof (relj_at _ _ Hr). assert (r = rel) by lia. subst r. unfold updd. rewrite Z.eqb_refl, ?Ln. unfold disp. rewrite ?(relj_at _ _ Ja). lia.
             ++ apply Old; [lia|exact Hr|exact Ht].
      + destruct (jop i 0) as [bs|] eqn:Eb; [|discriminate]. rewrite <- (bytes_some i 0 bs Eb), Em in H.
        eapply IH in H; [exact H|exact E'|]. split; auto.
        -- intros j. rewrite (l_js _ _ _ _ _ L), Ln. split.
           ++ intros (Hj & r & H1 & H2). split; [lia|eauto].
           ++ intros (Hj & r & H1 & H2). destruct (Z.eq_dec j (zlen dn)) as [->|N].
              ** destruct H1 as (i' & Q1 & Q2). congruence.
              ** split; [lia|eauto].
        -- intros j r Hj Hr Ht. destruct (Z.eq_dec j (zlen dn)) as [->|N].
           ++ destruct Hr as (i' & Q1 & Q2). congruence.
           ++ apply Old; [lia|exact Hr|exact Ht].
  Qed.

  (** every operation's code is where [off] says *)
  Theorem layout code : jit_loop addr regs need is 0 pro [] [] = Ok code ->
    exists dl, (forall j rel, jmp_at j rel -> j + rel + 1 < zlen is -> dl j = disp j rel) /\
      (forall j i, gnth is j = Some i -> at_ code (off j) (bytes i (dl j))) /\ exists rest, code = pro ++ rest.
  Proof.
    intros H. destruct (loop_layout is [] pro [] [] (fun _ => 0) code eq_refl) as (dl & E & D).
    - split; cbn; try reflexivity.
      + rewrite app_nil_r. reflexivity.
      + intros k Hk. change (zlen (@nil instr)) with 0 in Hk. lia.
      + change (zlen (@nil instr)) with 0. intros j. split; [intros []|lia].
      + change (zlen (@nil instr)) with 0. intros. lia.
    - exact H.
    - exists dl. split; [|split].
      + intros j rel Hj. apply D; [|exact Hj]. destruct Hj as (i & G & _). exact (gnth_Some _ _ _ G).
      + intros j i Gi. pose proof (gnth_Some _ _ _ Gi) as Hj.
        rewrite E.
        assert (Ed : is = firstn (Z.to_nat j) is ++ [i] ++ skipn (Z.to_nat (j + 1)) is).
        { rewrite app_assoc, <- (firstn_S j i Gi). symmetry. apply firstn_skipn. }
        rewrite Ed, !emit_app. cbn [emit]. rewrite app_nil_r.
        assert (La : zlen (firstn (Z.to_nat j) is) = j) by (unfold zlen in *; rewrite firstn_length; lia).
        rewrite La, Z.add_0_l. eexists (pro ++ emit (firstn (Z.to_nat j) is) 0 dl), _. split.
        * rewrite <- !app_assoc. reflexivity.
        * rewrite zlen_app, emit_len. reflexivity.
      + eexists. exact E.
  Qed.
End Layout.
