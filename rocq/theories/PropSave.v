(** C67: a compiled program that is written to a file and loaded again is the same
    program: the same functions, with the same code and constants, and so the same value. *)
From Verif Require Import Base Arr GArr WordModel WordProofs AsmModel PropAsm DumpModel PropDump CompileModel VmModel SrcSpec CompileProofs CompileEq CompileExt CompileTotal
  PropCompile PropCompile2 Toy PropParse SaveModel CompileSeg.
From Coq Require Import ZifyBool.
Ltac Zify.zify_post_hook ::= Z.div_mod_to_equations.

(** ** Code *)
Lemma opof_opnum o : opof (opnum o) = o /\ 0 <= opnum o < 256.
Proof. destruct o; vm_compute; repeat split; discriminate. Qed.
Lemma dec_enc_instr i : ok12 i -> dec_instr (enc_instr i) = i.
Proof.
  intros [A B]. destruct i as [o a b]. cbn [ia ib] in *. unfold dec_instr, enc_instr. cbn [ic ia ib].
  destruct (opof_opnum o) as [E R]. rewrite unle_le by apply op_word_range. rewrite word_parts by exact R. cbn [ocode oa ob].
  rewrite E. unfold sx12. f_equal; lia.
Qed.
Lemma dec_enc l : Forall ok12 l -> dec (enc l) = l.
Proof.
  induction 1 as [|i l I _ IH]; [reflexivity|]. unfold enc in *. cbn [map concat].
  assert (Q : exists b0 b1 b2 b3, enc_instr i = [b0; b1; b2; b3]) by (unfold enc_instr; cbn [le]; eauto).
  destruct Q as (b0 & b1 & b2 & b3 & Q). pose proof (dec_enc_instr i I) as D. rewrite Q in *. cbn [app dec]. rewrite D, IH. reflexivity.
Qed.
Lemma zlen_enc l : zlen (enc l) = 4 * zlen l.
Proof. induction l as [|i l IH]; [reflexivity|]. unfold enc in *. cbn [map concat]. rewrite zlen_app, zlen_cons, IH. unfold enc_instr. rewrite zlen_le. lia. Qed.

Lemma Forall2_len {A B} (R : A -> B -> Prop) l l' : Forall2 R l l' -> length l = length l'.
Proof. induction 1; cbn; congruence. Qed.

(** ** Specification *)
(** the words of a program that survive: strings (interned: C26) and immediates *)
Definition keeps_word (content : Z -> option (list Z)) (intern : list Z -> Z) (w : Z) : Prop :=
  match content w with
  | Some s => intern s = w /\ zlen s < 100000000
  | None => PN_IS_PTR w = false /\ 0 <= w < two64
  end.
(** the limits of the format: the length of a table is one byte *)
Definition storable (content : Z -> option (list Z)) (intern : list Z -> Z) (g : pb) : Prop :=
  (forall w, In w (b_sig g ++ b_values g ++ b_paths g ++ b_locals g ++ b_upvals g) -> keeps_word content intern w)
  /\ zlen (b_sig g) < 256 /\ zlen (b_values g) < 256 /\ zlen (b_paths g) < 256 /\ zlen (b_locals g) < 256 /\ zlen (b_upvals g) < 256
  /\ zlen (b_protos g) < 256 /\ zlen (b_code g) <= 2047 /\ b_stack g <= 1024.
(** a name for the functions *)
Definition plain_name (n : cval) : Prop := cok n /\ match n with CDbl _ => False | _ => True end.

Section Save.
  Context (content : Z -> option (list Z)) (intern : list Z -> Z) (name : cval).
  Context (NM : plain_name name).
  Notation keeps := (keeps_word content intern).
  Lemma word_back w : keeps w -> word_of intern (cval_of content w) = w /\ cok (cval_of content w) /\ match cval_of content w with CDbl _ => False | _ => True end.
  Proof.
    unfold keeps_word, cval_of. destruct (content w) as [s|]; intros [A B]; [repeat split; assumption|]. rewrite A. repeat split; auto; lia.
  Qed.
  Lemma words_back l : (forall w, In w l -> keeps w) -> zlen l < 256 -> map (word_of intern) (map (cval_of content) l) = l /\ lok (map (cval_of content) l)
    /\ Forall (fun v => match v with CDbl _ => False | _ => True end) (map (cval_of content) l).
  Proof.
    intros K L. split; [|split].
    - clear L. induction l as [|w l IH]; [reflexivity|]. cbn [map]. rewrite (proj1 (word_back w (K w (or_introl eq_refl)))). rewrite IH; [reflexivity|].
      intros x X. apply K. right. exact X.
    - split; [rewrite zlen_map; exact L|]. apply Forall_forall. intros v V. apply in_map_iff in V. destruct V as (w & <- & W). apply word_back, K, W.
    - apply Forall_forall. intros v V. apply in_map_iff in V. destruct V as (w & <- & W). apply word_back, K, W.
  Qed.
  Lemma stack_back f : 1 <= b_stack f -> b_stack f <= 1024 -> PN_INT (PN_NUM (b_stack f)) = b_stack f /\ cok (CImm (PN_NUM (b_stack f))).
  Proof.
    intros A B. split; [apply PN_INT_NUM; unfold repb, two62; lia|]. cbn. split; [apply PN_NUM_range|]. unfold PN_IS_PTR. rewrite PN_NUM_is_int. reflexivity.
  Qed.
  Fixpoint installs (base : Z) (l : list proto) : list pb * list Z :=
    match l with
    | [] => ([], [])
    | q :: l => let tq := install intern base q in
                let (t, ids) := installs (base + zlen tq) l in
                (tq ++ t, (base + zlen tq - 1) :: ids)
    end.
  Lemma install_eq base p : install intern base p = fst (installs base (pprotos p)) ++
    [mkPb (dec (pasm p)) (map (word_of intern) (pvalues p)) (map (word_of intern) (plocals p)) (map (word_of intern) (pupvals p))
       (map (word_of intern) (ppaths p)) (snd (installs base (pprotos p))) (map (word_of intern) (psig p)) (stack_of (pstack p))].
  Proof. destruct p. reflexivity. Qed.
  Lemma installs_app l : forall base l', installs base (l ++ l') =
    (fst (installs base l) ++ fst (installs (base + zlen (fst (installs base l))) l'), snd (installs base l) ++ snd (installs (base + zlen (fst (installs base l))) l')).
  Proof.
    induction l as [|q l IH]; intros base l'; cbn [app installs fst snd].
    - change (zlen (@nil pb)) with 0. rewrite Z.add_0_r. destruct (installs base l'); reflexivity.
    - rewrite IH. destruct (installs (base + zlen (install intern base q)) l) as [t ids]. cbn [fst snd]. rewrite zlen_app, !app_assoc.
      replace (base + (zlen (install intern base q) + zlen t)) with (base + zlen (install intern base q) + zlen t) by lia. reflexivity.
  Qed.

  Definition good (p : proto) : Prop := pwf false p /\ nodbl p.
  Definition tree_of (top : bool) (f : pb) (ps : list proto) : proto :=
    mkProto name (if top then CImm PN_NIL else CUp) (map (cval_of content) (b_sig f)) (CImm (PN_NUM (b_stack f)))
      (map (cval_of content) (b_values f)) (map (cval_of content) (b_paths f)) (map (cval_of content) (b_locals f)) (map (cval_of content) (b_upvals f))
      ps (enc (b_code f)) (zlen (b_locals f)) (zlen (b_upvals f)) (zlen (b_paths f)).
  (** one function, given the trees of its nested functions *)
  Lemma one_tree top f ps base t : storable content intern f -> okpb f -> Forall good ps -> zlen ps = zlen (b_protos f) ->
    installs base ps = (t, b_protos f) ->
    install intern base (tree_of top f ps) = t ++ [f] /\ pwf top (tree_of top f ps) /\ nodbl (tree_of top f ps).
  Proof.
    intros (K & L1 & L2 & L3 & L4 & L5 & L6 & L7 & L8) [O1 O2] G LP E.
    destruct (words_back (b_sig f) ltac:(intros w W; apply K; repeat (rewrite in_app_iff; tauto)) L1) as (S1 & S2 & S3).
    destruct (words_back (b_values f) ltac:(intros w W; apply K; rewrite !in_app_iff; tauto) L2) as (V1 & V2 & V3).
    destruct (words_back (b_paths f) ltac:(intros w W; apply K; rewrite !in_app_iff; tauto) L3) as (P1 & P2 & P3).
    destruct (words_back (b_locals f) ltac:(intros w W; apply K; rewrite !in_app_iff; tauto) L4) as (Q1 & Q2 & Q3).
    destruct (words_back (b_upvals f) ltac:(intros w W; apply K; rewrite !in_app_iff; tauto) L5) as (U1 & U2 & U3).
    destruct (stack_back f O2 L8) as (T1 & T2). destruct NM as (N1 & N2).
    split; [|split].
    - rewrite install_eq. unfold tree_of. cbn [pprotos pasm pvalues plocals pupvals ppaths psig pstack stack_of]. rewrite E. cbn [fst snd].
      rewrite S1, V1, P1, Q1, U1, T1, dec_enc by exact O1. destruct f; reflexivity.
    - unfold tree_of. constructor; cbn [pname psource psig pstack pvalues ppaths plocals pupvals pprotos pasm plocalsize pupvalsize ppathsize];
        try assumption; try (rewrite ?zlen_map; reflexivity).
      + lia.
      + intros g I. rewrite Forall_forall in G. apply G, I.
      + rewrite zlen_enc. unfold two64. lia.
    - unfold tree_of. cbn [nodbl pname psource psig pstack pvalues ppaths plocals pupvals pprotos].
      split; [exact N2|]. split; [destruct top; exact Logic.I|]. split; [exact S3|]. split; [exact Logic.I|]. split; [exact V3|]. split; [exact P3|]. split; [exact Q3|]. split; [exact U3|].
      clear - G. induction G as [|x l [_ X] _ IH]; [exact Logic.I | split; assumption].
  Qed.
  (** a stretch of the table *)
  Lemma segs_trees T : forall b t ids, segs b t ids -> forall pre post, T = pre ++ t ++ post -> zlen pre = b ->
    (forall g, In g t -> storable content intern g /\ okpb g) ->
    exists ps, Forall2 (fun id q => exists g, gnth T id = Some g /\ saves content T name false g q) ids ps
      /\ Forall good ps /\ installs b ps = (t, ids).
  Proof.
    intros b t ids H. induction H as [b|b t ids t1 f H IH H1 IH1]; intros pre post ET EB ST.
    - exists []. repeat split; constructor.
    - pose proof (zlen_nonneg t). pose proof (zlen_nonneg t1). pose proof (zlen_nonneg pre).
      destruct (IH pre ((t1 ++ [f]) ++ post)) as (ps & A1 & A2 & A3); [rewrite ET, <- !app_assoc; reflexivity | exact EB | intros g G; apply ST; rewrite !in_app_iff; tauto|].
      destruct (IH1 (pre ++ t) ([f] ++ post)) as (qs & B1 & B2 & B3); [rewrite ET, <- !app_assoc; reflexivity | rewrite zlen_app; lia | intros g G; apply ST; rewrite !in_app_iff; tauto|].
      destruct (ST f) as [SF OF]; [rewrite !in_app_iff; cbn; tauto|].
      assert (LQ : zlen qs = zlen (b_protos f)) by (apply Forall2_len in B1; unfold zlen; lia).
      destruct (one_tree false f qs (b + zlen t) t1 SF OF B2 LQ B3) as (I1 & I2 & I3).
      exists (ps ++ [tree_of false f qs]). split; [|split].
      + apply Forall2_app; [exact A1|]. constructor; [|constructor]. exists f. split; [|apply Saves, B1].
        rewrite ET. replace (pre ++ (t ++ t1 ++ [f]) ++ post) with ((pre ++ t ++ t1) ++ f :: post) by (rewrite <- !app_assoc; reflexivity).
        unfold gnth. replace (b + zlen t + zlen t1 <? 0) with false by lia.
        replace (Z.to_nat (b + zlen t + zlen t1)) with (length (pre ++ t ++ t1)) by (rewrite !app_length; unfold zlen in *; lia).
        rewrite nth_error_app2, Nat.sub_diag by lia. reflexivity.
      + apply Forall_app. split; [exact A2|]. constructor; [split; assumption | constructor].
      + rewrite installs_app, A3. cbn [fst snd installs]. rewrite I1. cbn [fst snd]. rewrite app_nil_r, !zlen_app. change (zlen [f]) with 1.
        replace (b + zlen t + (zlen t1 + 1) - 1) with (b + zlen t + zlen t1) by lia. reflexivity.
  Qed.
  Lemma saves_fun T p : forall top f q, saves content T name top f p -> saves content T name top f q -> p = q.
  Proof.
    induction p as [p IH] using proto_ind'. intros top f q A B. inversion A as [? ? ps F1 E1 E2 E3]. inversion B as [? ? qs F2 E4 E5 E6]. subst. f_equal.
    cbn [pprotos] in IH. clear A B. revert qs F2 IH. induction F1 as [|id x ids ps (g & G1 & G2) F1 IHF]; intros qs F2 IH; inversion F2 as [|? y ? ys (h & H1 & H2) F3]; subst; [reflexivity|].
    assert (g = h) by congruence. subst h. f_equal; [eapply IH; [left; reflexivity | exact G2 | exact H2]|]. apply IHF; [exact F3|]. intros z Z. apply IH. right. exact Z.
  Qed.
End Save.

(** ** The theorems *)
(** every compiled program has a tree, and the tree stands for exactly its functions *)
Theorem C67_tree_of_a_program content intern name chr0 is_str k es m t :
  plain_name name -> program_ok chr0 is_str es -> source_compile chr0 k (program es) = Ok (m, t) ->
  (forall g, In g (t ++ [m]) -> storable content intern g) ->
  exists p, saves content (t ++ [m]) name true m p /\ (forall q, saves content (t ++ [m]) name true m q -> q = p)
    /\ install intern 0 p = t ++ [m] /\ pwf true p /\ nodbl p.
Proof.
  intros NM ((L & WF) & _ & ND & _) SC ST. destruct (program_segs chr0 k es L m t WF ND SC) as [SG OK].
  rewrite Forall_forall in OK.
  destruct (segs_trees content intern name NM (t ++ [m]) 0 t (b_protos m) SG [] [m] eq_refl eq_refl) as (ps & A1 & A2 & A3).
  { intros g G. assert (I : In g (t ++ [m])) by (rewrite in_app_iff; tauto). auto. }
  assert (IM : In m (t ++ [m])) by (rewrite in_app_iff; right; left; reflexivity).
  assert (LP : zlen ps = zlen (b_protos m)) by (apply Forall2_len in A1; unfold zlen; lia).
  destruct (one_tree content intern name NM true m ps 0 t (ST m IM) (OK m IM) A2 LP A3) as (I1 & I2 & I3).
  exists (tree_of content name true m ps). assert (SV : saves content (t ++ [m]) name true m (tree_of content name true m ps)) by (apply Saves, A1).
  split; [exact SV|]. split; [intros q Q; exact (saves_fun content name _ q true m _ Q SV)|]. auto.
Qed.
(** written and read back: the same tree, so the same functions *)
Theorem C67_saved_program_is_the_program content intern name chr0 is_str k es m t p :
  plain_name name -> program_ok chr0 is_str es -> source_compile chr0 k (program es) = Ok (m, t) ->
  (forall g, In g (t ++ [m]) -> storable content intern g) ->
  saves content (t ++ [m]) name true m p -> dump_size p <= 8208 ->
  exists bytes, source_dumpbc p = Ok bytes
    /\ (forall fuel, (pdepth p <= fuel)%nat -> source_load fuel bytes = Ok (Some p))
    /\ install intern 0 p = t ++ [m].
Proof.
  intros NM PO SC ST SV SZ. destruct (C67_tree_of_a_program content intern name chr0 is_str k es m t NM PO SC ST) as (p' & _ & U & I1 & I2 & I3).
  rewrite (U p SV) in *. destruct (C33_roundtrip_no_floats p' I2 I3 SZ) as (bytes & D & LD). exists bytes. auto.
Qed.
(** source text of a program -> compiled file -> loaded file -> value *)
Theorem C67_run_the_saved_program {W} (H : host W) content intern name chr0 is_str STR0 k es m t p d self (w w' : W) v :
  plain_name name -> program_ok chr0 is_str es -> source_compile chr0 k (program es) = Ok (m, t) ->
  (forall g, In g (t ++ [m]) -> storable content intern g) ->
  saves content (t ++ [m]) name true m p -> dump_size p <= 8208 ->
  PropCompile.fits (t ++ [m]) d -> truth self = true ->
  ((forall w v, h_isref H w v = false) \/
   (forall l ps b, In (l, (ps, b)) (fns_all es) -> forall x, In x (sets_all b) -> memb x ps = true)) ->
  means H es d self w w' v ->
  exists bytes q, source_dumpbc p = Ok bytes
    /\ (forall fuel, (pdepth p <= fuel)%nat -> source_load fuel bytes = Ok (Some q))
    /\ returns H (install intern 0 q) is_str STR0 (zlen (install intern 0 q) - 1) self w w' v.
Proof.
  intros NM PO SC ST SV SZ FT TS HL ME.
  destruct (C67_saved_program_is_the_program content intern name chr0 is_str k es m t p NM PO SC ST SV SZ) as (bytes & D & LD & IN).
  exists bytes, p. split; [exact D|]. split; [exact LD|]. rewrite IN. rewrite zlen_app. change (zlen [m]) with 1. replace (zlen t + 1 - 1) with (zlen t) by lia.
  eapply C47_programs_with_functions; eauto.
Qed.

(** ** A concrete case: the factorial of PropParse *)
Definition toy_content (w : Z) : option (list Z) := match toy_spell w with [] => None | s => Some s end.
Definition keeps_wordb (content : Z -> option (list Z)) (intern : list Z -> Z) (w : Z) : bool :=
  match content w with
  | Some s => (intern s =? w) && (zlen s <? 100000000)
  | None => negb (PN_IS_PTR w) && (0 <=? w) && (w <? two64)
  end.
Definition storableb (content : Z -> option (list Z)) (intern : list Z -> Z) (g : pb) : bool :=
  forallb (keeps_wordb content intern) (b_sig g ++ b_values g ++ b_paths g ++ b_locals g ++ b_upvals g)
  && (zlen (b_sig g) <? 256) && (zlen (b_values g) <? 256) && (zlen (b_paths g) <? 256) && (zlen (b_locals g) <? 256) && (zlen (b_upvals g) <? 256)
  && (zlen (b_protos g) <? 256) && (zlen (b_code g) <=? 2047) && (b_stack g <=? 1024).
Lemma storableb_ok content intern g : storableb content intern g = true -> storable content intern g.
Proof.
  unfold storableb. intros H. repeat (apply andb_true_iff in H; destruct H as [H ?]). split; [|lia].
  intros w I. rewrite forallb_forall in H. specialize (H w I). unfold keeps_wordb in H. unfold keeps_word. destruct (content w).
  - lia.
  - apply andb_true_iff in H. destruct H as [H ?]. apply andb_true_iff in H. destruct H as [H ?]. split; [destruct (PN_IS_PTR w); [discriminate | reflexivity] | lia].
Qed.
(** the numbers of the instructions in the file, by opcodes.h 10-61 *)
Example opcode_numbers : map opnum [O_MOVE; O_LOADK; O_LOADPN; O_SELF; O_NEWTUPLE; O_GETTUPLE; O_SETTUPLE; O_GETLOCAL; O_SETLOCAL; O_GETUPVAL; O_SETUPVAL]
  = [1; 2; 3; 4; 5; 6; 7; 8; 9; 10; 11]
  /\ map opnum [O_GLOBAL; O_GETTABLE; O_SETTABLE; O_NEWLICK; O_GETPATH; O_SETPATH; O_ADD; O_SUB; O_MULT; O_DIV; O_REM; O_POW] = [12; 13; 14; 15; 16; 17; 18; 19; 20; 21; 22; 23]
  /\ map opnum [O_NOT; O_CMP; O_EQ; O_NEQ; O_LT; O_LTE; O_GT; O_GTE; O_BITN; O_BITL; O_BITR; O_DEF; O_BIND; O_MSG] = [24; 25; 26; 27; 28; 29; 30; 31; 32; 33; 34; 35; 36; 37]
  /\ map opnum [O_JMP; O_TEST; O_TESTJMP; O_NOTJMP; O_NAMED; O_CALL; O_CALLSET; O_TAILCALL; O_RETURN; O_PROTO; O_CLASS; O_DEBUG] = [38; 39; 40; 41; 42; 43; 44; 45; 46; 47; 48; 49].
Proof. repeat split. Qed.
Definition fact_compiled : pb * list pb := match source_compile lower 100 (program ex_fact) with Ok x => x | _ => (pb0 [] [], []) end.
Example C67_example : exists p bytes,
  source_compile lower 100 (program ex_fact) = Ok fact_compiled
  /\ (forall g, In g (snd fact_compiled ++ [fst fact_compiled]) -> storable toy_content toy_table g)
  /\ saves toy_content (snd fact_compiled ++ [fst fact_compiled]) (CStr [102]) true (fst fact_compiled) p /\ dump_size p <= 8208
  /\ length (snd fact_compiled) = 1%nat
  /\ source_dumpbc p = Ok bytes /\ source_load 2 bytes = Ok (Some p) /\ install toy_table 0 p = snd fact_compiled ++ [fst fact_compiled].
Proof.
  set (T := snd fact_compiled ++ [fst fact_compiled]).
  exists (tree_of toy_content (CStr [102]) true (fst fact_compiled) [tree_of toy_content (CStr [102]) false (hd (pb0 [] []) T) []]).
  eexists. split; [vm_compute; reflexivity|].
  assert (ST : forall g, In g T -> storable toy_content toy_table g).
  { intros g G. apply storableb_ok. assert (A : forallb (storableb toy_content toy_table) T = true) by (vm_compute; reflexivity).
    rewrite forallb_forall in A. exact (A g G). }
  split; [exact ST|]. split.
  - apply Saves. replace (b_protos (fst fact_compiled)) with [0] by (vm_compute; reflexivity). constructor; [|constructor].
    eexists. split; [vm_compute; reflexivity|].
    match goal with |- saves _ _ _ _ ?g _ => replace (hd (pb0 [] []) T) with g by (vm_compute; reflexivity) end.
    apply Saves. constructor.
  - split; [vm_compute; discriminate|]. split; [vm_compute; reflexivity|]. split; [vm_compute; reflexivity|]. split; vm_compute; reflexivity.
Qed.
