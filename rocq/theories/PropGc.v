(** C39 (a collection preserves the reachable object graph), C26 (interned strings
    across collections), C52 (tables across collections). *)
From Coq Require Import ZifyBool.
From Verif Require Import Base Arr WordModel WordProofs LayoutModel GcModel GcSpec GcProofs GcInv GcFinal.
Ltac Zify.zify_post_hook ::= Z.div_mod_to_equations.

(** what must hold when a minor collection starts: the heap is well formed, P is the
    interpreter state, the stack holds sound roots, and (the write barrier, C42) every
    old object that refers into the nursery is on the store list *)
Record minor_pre (c : cfg) (h : heap) (start limit P : Z) (stack store : list Z) (strings : list (option Z)) : Prop := mkMinor {
  m_ready : ready c h start limit;
  m_P : exists o, old_obj c h P o /\ o_vt o = PN_TSTATE;
  m_stack : forall w, In w stack -> good_root c h w;
  m_store : forall v, In v store -> PN_IS_PTR v = true -> exists o, old_obj c h v o;
  m_barrier : forall a o, old_obj c h a o -> In a store \/ unaffected c h a;
  m_strings : forall v, In (Some v) strings -> c_from c v = true -> h v <> None
}.
(** likewise for a major collection, which walks the protected objects instead *)
Record major_pre (c : cfg) (h : heap) (start limit P : Z) (stack : list Z) (wk : bool) (lo hi : Z) (prot : list Z)
  (strings : list (option Z)) : Prop := mkMajor {
  j_ready : ready c h start limit;
  j_P : exists o, old_obj c h P o /\ o_vt o = PN_TSTATE;
  j_stack : forall w, In w stack -> good_root c h w;
  j_walk : if wk then walk c h lo hi prot else prot = [];
  j_prot : forall a o, old_obj c h a o -> In a prot \/ unaffected c h a;
  j_strings : forall v, In (Some v) strings -> c_from c v = true -> h v <> None
}.
(** an entry of the table of interned strings after a collection never dangles *)
Definition string_entry_sound (c : cfg) (h h' : heap) (img : Z -> Z) (k k' : option Z) : Prop :=
  match k' with
  | None => match k with None => True | Some v => c_from c v = true end
  | Some w => exists v, k = Some v /\ w = img v /\ (h v <> None -> h' w <> None)
  end.
(** ... and is kept when its string is live *)
Definition string_entry_kept (c : cfg) (h : heap) (stack : list Z) (img : Z -> Z) (k k' : option Z) : Prop :=
  forall v, k = Some v -> live c h stack v -> k' = Some (img v).

Lemma weak_sound c h start limit C1 E s : ready c h start limit -> final c h start limit (C1 ++ E) s ->
  forall k k', weak_res c h start C1 k k' -> (forall v, k = Some v -> c_from c v = true -> h v <> None) ->
  string_entry_sound c h (release c (g_heap s)) (image c h start (C1 ++ E)) k k'.
Proof.
  intros RD Fi k k' W Hn. pose proof Fi as (I & _ & _). unfold string_entry_sound. destruct k as [v|]; cbn [weak_res] in W; [|rewrite W; auto].
  destruct (c_from c v) eqn:F.
  - destruct W as [(b & Pb & ->)|(_ & ->)]; [|auto]. exists v. split; auto.
    destruct (h v) as [o|] eqn:Ho; [|exfalso; apply (Hn v); auto].
    destruct (g_obj RD v o Ho) as (P & _).
    assert (Pb' : placed c h start (C1 ++ E) v b) by (apply placed_app; auto).
    split.
    + apply (image_moved c h start limit (C1 ++ E) s v b I). unfold moved_to. rewrite P, F. exact Pb'.
    + intros _. destruct (released c h start limit RD _ s b o I) as (o2 & R & _); [left; exists v; auto|congruence].
  - rewrite W. exists v. split; auto. split; [unfold image; rewrite F; auto|]. intros N.
    destruct (h v) as [o|] eqn:Ho; [|congruence].
    destruct (released c h start limit RD _ s v o I) as (o2 & R & _); [|congruence]. apply old_orig; auto. split; auto.
Qed.
Lemma Forall2_imp {A B} (R S : A -> B -> Prop) l l' : (forall x y, In x l -> R x y -> S x y) -> Forall2 R l l' -> Forall2 S l l'.
Proof. intros H F. induction F; constructor; [apply H; [left|]; auto|apply IHF; intros; apply H; [right|]; auto]. Qed.

(** ** C39 *)
Theorem C39_minor_collection_preserves_the_reachable_graph :
  forall c h start limit P stack store strings, minor_pre c h start limit P stack store strings ->
  exists r img, terminates (fun fuel => minor c fuel P h start stack store strings) (Ok r) /\
    preserved c h (r_heap r) stack (r_stack r) img /\ start <= r_cur r <= limit /\
    Forall2 (string_entry_sound c h (r_heap r) img) strings (r_strings r) /\ keep_ok (r_heap r) (r_keep r) /\ whole c (r_heap r).
Proof.
  intros c h start limit P stack store strings [RD (oP & HP & VP) Gs Gst Rem Gw].
  destruct (minor_ok c h start limit RD P oP stack store strings HP VP Gs Gst Rem Gw) as (N & s & C & C1 & stack' & strings' & T & Fi & St & W & (E & EC) & Kp).
  exists (mkR (release c (g_heap s)) (g_cur s) stack' strings' (g_keep s)), (image c h start C).
  split; [exists N; exact T|]. cbn [r_heap r_stack r_cur r_strings r_keep]. split; [eapply final_preserved; eauto|].
  pose proof Fi as (I & _ & _). split; [|split; [|split; [exact Kp|eapply final_whole; eauto]]].
  - rewrite (i_cur _ _ _ _ _ _ I). pose proof (inv_fits c h start limit RD C s I).
    pose proof (szs_nonneg c h start limit RD C (inv_okc _ _ _ _ C s I)). lia.
  - subst C. eapply Forall2_imp; [|exact W]. intros k k' Hk Wk. eapply weak_sound; eauto. intros v -> Fv. apply (Gw v Hk Fv).
Qed.
Theorem C39_major_collection_preserves_the_reachable_graph :
  forall c h start limit P stack wk lo hi prot strings, major_pre c h start limit P stack wk lo hi prot strings ->
  exists r img, terminates (fun fuel => major c fuel P h start stack wk lo hi strings) (Ok r) /\
    preserved c h (r_heap r) stack (r_stack r) img /\ start <= r_cur r <= limit /\
    Forall2 (string_entry_sound c h (r_heap r) img) strings (r_strings r) /\
    Forall2 (string_entry_kept c h stack img) strings (r_strings r) /\ keep_ok (r_heap r) (r_keep r) /\ whole c (r_heap r).
Proof.
  intros c h start limit P stack wk lo hi prot strings [RD (oP & HP & VP) Gs Gst Rem Gw].
  destruct (major_ok c h start limit RD P oP stack wk lo hi prot strings HP VP Gs Gst Rem Gw) as (N & s & C & stack' & strings' & T & Fi & St & W & Kp).
  exists (mkR (release c (g_heap s)) (g_cur s) stack' strings' (g_keep s)), (image c h start C).
  split; [exists N; exact T|]. cbn [r_heap r_stack r_cur r_strings r_keep]. split; [eapply final_preserved; eauto|].
  pose proof Fi as (I & _ & _). split; [|split; [|split; [|split; [exact Kp|eapply final_whole; eauto]]]].
  - rewrite (i_cur _ _ _ _ _ _ I). pose proof (inv_fits c h start limit RD C s I).
    pose proof (szs_nonneg c h start limit RD C (inv_okc _ _ _ _ C s I)). lia.
  - eapply Forall2_imp; [|exact W]. intros k k' Hk Wk. rewrite <- (app_nil_r C).
    eapply weak_sound; eauto; [rewrite app_nil_r; auto|]. intros v -> Fv. apply (Gw v Hk Fv).
  - eapply Forall2_imp; [|exact W]. intros k k' Hk Wk v -> L. cbn [weak_res] in Wk.
    pose proof (live_evac c h start limit RD C s stack stack' Fi St v L) as Ev.
    destruct (live_obj c h stack v L) as (o & Ho & _). destruct (g_obj RD v o Ho) as (Pv & _).
    unfold image. rewrite Pv, andb_true_r. destruct (c_from c v) eqn:F; [|auto].
    destruct Wk as [(b & Pb & ->)|(Nv & _)]; [|destruct Ev; [congruence|contradiction]].
    f_equal. eapply placed_fun; [apply (i_nd _ _ _ _ _ _ I)|exact Pb|]. apply offset_placed. eapply placed_In; eauto.
Qed.

(** *** A concrete heap: the interpreter state at 4096 (protected), a nursery from 8192
    with a tuple and a string that it holds, a forwarding stub to the tuple, and the
    cycle tuple -> stub -> tuple; free old space from 65536. *)
Definition ex_from (a : Z) : bool := (8192 <? a) && (a <? 16384).
Definition ex_region (a : Z) : bool := (4096 <=? a) && (a <? 1000000).
Definition ex_c : cfg := mkC ex_from ex_region (fun _ => 0) 24 (fun _ => false) 10.
Definition ex_state : obj := mkObj 600 (PN_TSTATE :: repeat 0 74).
(** ["hi"]: three bytes with the final zero, padded *)
Definition ex_string : obj := mkObj 16 [PN_TSTRING + 77 * 4294967296; 2 + 26984 * 4294967296].
(** a tuple of three elements: the string, the stub of the tuple itself, the integer 1 *)
Definition ex_tuple : obj := mkObj 40 [PN_TTUPLE + 78 * 4294967296; 3 + 3 * 4294967296; 8208; 8272; 3].
Definition ex_stub : obj := mkObj 32 [POTION_FWD + 32 * 4294967296; 8224; 0; 0].
Definition ex_h : heap := fun a =>
  if a =? 4096 then Some ex_state else if a =? 8208 then Some ex_string
  else if a =? 8224 then Some ex_tuple else if a =? 8272 then Some ex_stub else None.
Lemma ex_h_cases a o : ex_h a = Some o ->
  (a = 4096 /\ o = ex_state) \/ (a = 8208 /\ o = ex_string) \/ (a = 8224 /\ o = ex_tuple) \/ (a = 8272 /\ o = ex_stub).
Proof.
  unfold ex_h. destruct (Z.eqb_spec a 4096); [intros [= <-]; auto|]. destruct (Z.eqb_spec a 8208); [intros [= <-]; auto|].
  destruct (Z.eqb_spec a 8224); [intros [= <-]; auto|]. destruct (Z.eqb_spec a 8272); [intros [= <-]; auto 10|]. discriminate.
Qed.
Lemma ex_valid_imm w : PN_IS_PTR w = false -> valid ex_c ex_h w.
Proof. intros H. exists 0%nat, w. split; [cbn; lia|]. apply ch_imm. auto. Qed.
Lemma ex_leads_string : chain ex_h 0 8208 8208. Proof. eapply ch_obj; reflexivity. Qed.
Lemma ex_leads_tuple : chain ex_h 0 8224 8224. Proof. eapply ch_obj; reflexivity. Qed.
Lemma ex_leads_stub : chain ex_h 1 8272 8224. Proof. eapply ch_stub; try reflexivity. apply ex_leads_tuple. Qed.
Lemma ex_slots_state i : In i (slots ex_c ex_state) -> 1 <= i < 75 /\ word ex_state i = 0.
Proof.
  intros H. vm_compute in H. repeat (destruct H as [<-|H]; [split; [lia|reflexivity]|]). destruct H.
Qed.
Lemma ex_slots_tuple i : In i (slots ex_c ex_tuple) -> 2 <= i < 5 /\ (i = 2 \/ i = 3 \/ i = 4).
Proof. intros H. vm_compute in H. repeat (destruct H as [<-|H]; [split; [lia|auto]|]). destruct H. Qed.
Lemma ex_ready : ready ex_c ex_h 65536 131072.
Proof.
  constructor.
  - intros a o H. destruct (ex_h_cases a o H) as [(-> & ->)|[(-> & ->)|[(-> & ->)|(-> & ->)]]]; (split; [reflexivity|]); (split; [reflexivity|]); constructor.
    1,5,9,13: vm_compute; discriminate.
    2,5,8,11: reflexivity.
    + intros i Hi. apply ex_slots_state in Hi. change (zlen (o_words ex_state)) with 75. lia.
    + intros _. vm_compute. split; [split; discriminate|auto].
    + intros i Hi. vm_compute in Hi. destruct Hi.
    + intros _. vm_compute. split; [split; discriminate|auto].
    + intros i Hi. apply ex_slots_tuple in Hi. change (zlen (o_words ex_tuple)) with 5. lia.
    + intros _. vm_compute. split; [split; discriminate|auto].
    + intros i Hi. vm_compute in Hi. destruct Hi as [<-|[]]. change (zlen (o_words ex_stub)) with 4. lia.
    + discriminate.
  - intros a o i H Hi. assert (Hs : In i (slots ex_c o)) by (apply in_or_app; auto).
    destruct (ex_h_cases a o H) as [(-> & ->)|[(-> & ->)|[(-> & ->)|(-> & ->)]]].
    + destruct (ex_slots_state i Hs) as (_ & ->). apply ex_valid_imm. reflexivity.
    + vm_compute in Hi. destruct Hi.
    + destruct (ex_slots_tuple i Hs) as (_ & [->|[->| ->]]).
      * exists 0%nat, 8208. split; [cbn; lia|]. apply ex_leads_string.
      * exists 1%nat, 8224. split; [cbn; lia|]. apply ex_leads_stub.
      * apply ex_valid_imm. reflexivity.
    + vm_compute in Hi. destruct Hi as [<-|[]]. exists 0%nat, 8224. split; [cbn; lia|]. apply ex_leads_tuple.
  - intros a o i H Hi. destruct (ex_h_cases a o H) as [(-> & ->)|[(-> & ->)|[(-> & ->)|(-> & ->)]]]; vm_compute in Hi; destruct Hi.
  - intros a o H. destruct (ex_h_cases a o H) as [(-> & ->)|[(-> & ->)|[(-> & ->)|(-> & ->)]]]; try discriminate.
    intros _. split; reflexivity.
  - cbn. lia.
  - cbn. lia.
  - intros b Hb. split.
    + destruct (ex_h b) as [o|] eqn:H; [|auto]. destruct (ex_h_cases b o H) as [(-> & _)|[(-> & _)|[(-> & _)|(-> & _)]]]; lia.
    + cbn. unfold ex_from. lia.
  - lia.
  - exists [8208; 8224]. split; [|split].
    + repeat constructor; cbn; intuition lia.
    + intros a o F H Hf. destruct (ex_h_cases a o H) as [(-> & ->)|[(-> & ->)|[(-> & ->)|(-> & ->)]]]; cbn; auto; discriminate.
    + vm_compute. discriminate.
Qed.
Lemma ex_minor_pre stack : (forall w, In w stack -> good_root ex_c ex_h w) ->
  minor_pre ex_c ex_h 65536 131072 4096 stack [] [Some 8208].
Proof.
  intros G. constructor; auto.
  - apply ex_ready.
  - exists ex_state. split; [split; reflexivity|reflexivity].
  - intros v [].
  - intros a o (F & H). right. intros o' H'. assert (o' = o) by congruence. subst o'.
    destruct (ex_h_cases a o H) as [(-> & ->)|[(-> & ->)|[(-> & ->)|(-> & ->)]]]; try discriminate.
    split; [discriminate|]. intros i Hi. destruct (ex_slots_state i Hi) as (_ & ->). reflexivity.
  - intros v [[= <-]|[]] _. discriminate.
Qed.
Lemma ex_root_stub : good_root ex_c ex_h 8272.
Proof. intros _. left. split; [reflexivity|]. exists 1%nat, 8224. split; [cbn; lia|]. apply ex_leads_stub. Qed.
Lemma ex_root_int : good_root ex_c ex_h 8209.
Proof. intros _. right. split; reflexivity. Qed.
(** the stack holds a reference through the stub and an integer whose bits look like
    an address in the nursery *)
Example C39_minor_example : minor_pre ex_c ex_h 65536 131072 4096 [8272; 8209] [] [Some 8208].
Proof. apply ex_minor_pre. intros w [<-|[<-|[]]]; [apply ex_root_stub|apply ex_root_int]. Qed.
Example C39_minor_example_result :
  match minor ex_c 10 4096 ex_h 65536 [8272; 8209] [] [] with
  | Ok r => r_stack r = [65536; 8209] /\ r_cur r = 65536 + 40 + 16 /\
            option_map o_words (r_heap r 65536) = Some [PN_TTUPLE + 78 * 4294967296; 3 + 3 * 4294967296; 65576; 65536; 3]
  | _ => False
  end.
Proof. vm_compute. auto. Qed.

(** ** C26: the minor collection empties entries of live strings.  It looks at the
    table of interned strings before it follows the store list and the fields of the
    copied objects, so a string that is only reachable through another object counts
    as dead: its entry is deleted, and the next string with the same content becomes a
    second object. *)
Theorem C26_minor_collection_forgets_live_strings_refuted :
  ~ (forall c h start limit P stack store strings, minor_pre c h start limit P stack store strings ->
     exists r img, terminates (fun fuel => minor c fuel P h start stack store strings) (Ok r) /\
       preserved c h (r_heap r) stack (r_stack r) img /\
       Forall2 (string_entry_kept c h stack img) strings (r_strings r)).
Proof.
  intros H. destruct (H ex_c ex_h 65536 131072 4096 [8272; 8209] [] [Some 8208] C39_minor_example) as (r & img & (N & T) & _ & K).
  assert (X : exists r0, minor ex_c 10 4096 ex_h 65536 [8272; 8209] [] [Some 8208] = Ok r0 /\ r_strings r0 = [None]).
  { eexists. split; [reflexivity|]. vm_compute. reflexivity. }
  destruct X as (r0 & E0 & S0).
  pose proof (minor_mono _ _ _ _ _ _ _ _ _ E0 (N + 10)%nat ltac:(lia)) as Mono.
  rewrite T in Mono by lia. injection Mono as ->. rewrite S0 in K. inversion K as [|? ? ? ? K1 _]; subst.
  assert (L : live ex_c ex_h [8272; 8209] 8208).
  { apply (lv_field _ _ _ 8224 ex_tuple 2); try reflexivity.
    - apply (lv_stack _ _ _ 8272); [left; auto| |reflexivity]. exists 1%nat. apply ex_leads_stub.
    - vm_compute. auto.
    - exists 0%nat. apply ex_leads_string. }
  specialize (K1 8208 eq_refl L). discriminate.
Qed.
