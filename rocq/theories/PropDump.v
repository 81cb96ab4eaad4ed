(** Properties C33 (bytecode dump/load round trip) and C34 (header check). *)
From Coq Require Import ZifyBool.
From Verif Require Import Base Arr WordModel WordProofs NumModel DblModel PropDbl BytesModel PropBytes AsmModel PropAsm DumpModel.
Ltac Zify.zify_post_hook ::= Z.div_mod_to_equations.

(** ** the file format: a stream of tokens *)
Inductive token := TC (v : cval) | TU (n : Z) | TW (w : Z) | TB (l : list Z).
Definition dtext (d : dbl) : list Z := match dbl_string d with Ok s => s | _ => [] end.
Definition tbytes (t : token) : list Z :=
  match t with
  | TC (CStr s) => le 8 ((zlen s + 1) * 16) ++ s
  | TC (CDbl d) => le 8 ((zlen (dtext d) + 1) * 16 + 2) ++ dtext d
  | TC (CImm w) => le 8 w
  | TC CUp | TC (CObj _) => le 8 0
  | TU n => [n mod 256]
  | TW w => le 8 w
  | TB l => l
  end.
Definition tb (ts : list token) : list Z := concat (map tbytes ts).
Definition vtoks (l : list cval) : list token := TU (zlen l) :: map TC l.
Fixpoint ptoks (f : proto) : list token :=
  TC (pname f) :: TC (psource f) :: vtoks (psig f) ++ TC (pstack f) :: vtoks (pvalues f) ++ vtoks (ppaths f)
  ++ vtoks (plocals f) ++ vtoks (pupvals f) ++ TU (zlen (pprotos f)) :: concat (map ptoks (pprotos f))
  ++ [TW (zlen (pasm f)); TB (pasm f)].

(** ** which functions can be dumped *)
(** constants: immediates, strings, doubles that print faithfully (C55) *)
Definition small_str (s : list Z) : Prop := zlen s < 100000000.
Definition cok (v : cval) : Prop :=
  match v with
  | CImm w => 0 <= w < two64 /\ PN_IS_PTR w = false
  | CStr s => small_str s
  | CDbl d => dbl_ok d /\ (dbl_ge_half d \/ -16 <= de d) /\ dbl_le d (10 ^ 20)
  | CUp | CObj _ => False
  end.
Definition lok (l : list cval) : Prop := zlen l < 256 /\ Forall cok l.
(** a compiled function: [source] is nil for the outermost one and the enclosing
    function for nested ones; the size fields agree with the tables *)
Inductive pwf : bool -> proto -> Prop :=
| PWF top f : cok (pname f) -> psource f = (if top : bool then CImm PN_NIL else CUp) ->
    lok (psig f) -> cok (pstack f) -> lok (pvalues f) -> lok (ppaths f) -> lok (plocals f) -> lok (pupvals f) ->
    zlen (pprotos f) < 256 -> (forall g, In g (pprotos f) -> pwf false g) ->
    zlen (pasm f) < two64 ->
    plocalsize f = zlen (plocals f) -> pupvalsize f = zlen (pupvals f) -> ppathsize f = zlen (ppaths f) ->
    pwf top f.
(** no floating-point constant is followed by a byte that continues its text *)
Definition safe (ts : list token) : Prop :=
  forall a d b, ts = a ++ TC (CDbl d) :: b -> ends_number (tb b ++ [0]).

(** nested induction *)
Lemma proto_ind' (P : proto -> Prop) :
  (forall f, (forall g, In g (pprotos f) -> P g) -> P f) -> forall f, P f.
Proof.
  intros H. fix IH 1. intros f. apply H. destruct f as [? ? ? ? ? ? ? ? ps ? ? ? ?]. cbn [pprotos].
  apply Forall_forall. revert ps. fix IHp 1. intros [|g ps]; constructor; [apply IH|apply IHp].
Qed.

(** ** writing *)
Lemma wput_le siz out b o : wput siz out b = Ok o -> zlen o <= siz.
Proof. unfold wput. destruct (Z.leb_spec (zlen out + zlen b) siz); [|discriminate]. intros E. injection E as <-. rewrite zlen_app. lia. Qed.
Lemma wput_nil siz out : zlen out <= siz -> wput siz out [] = Ok out.
Proof. intros H. unfold wput. change (zlen (@nil Z)) with 0. replace (zlen out + 0 <=? siz) with true by lia. rewrite app_nil_r. reflexivity. Qed.
Lemma wput_seq siz out b1 b2 : (do o <- wput siz out b1; wput siz o b2) = wput siz out (b1 ++ b2).
Proof.
  unfold wput. pose proof (zlen_nonneg b2). rewrite zlen_app.
  destruct (Z.leb_spec (zlen out + zlen b1) siz) as [A|A].
  - cbn [bind]. rewrite zlen_app. rewrite Z.add_assoc. destruct (_ <=? siz); [rewrite app_assoc|]; reflexivity.
  - replace (zlen out + (zlen b1 + zlen b2) <=? siz) with false by lia. reflexivity.
Qed.
Lemma wput_bind siz out b1 b2 k : (forall o, k o = wput siz o b2) -> (do o <- wput siz out b1; k o) = wput siz out (b1 ++ b2).
Proof. intros H. rewrite <- wput_seq. destruct (wput siz out b1); cbn [bind]; auto. Qed.
Lemma tb_app a b : tb (a ++ b) = tb a ++ tb b.
Proof. unfold tb. rewrite map_app, concat_app. reflexivity. Qed.
Lemma tb_cons t b : tb (t :: b) = tbytes t ++ tb b.
Proof. reflexivity. Qed.
Lemma lor2 n : 0 <= n -> Z.lor (n * 16) 2 = n * 16 + 2.
Proof.
  intros H. symmetry. rewrite <- Z.lxor_lor by (apply Z.bits_inj'; intros k K; rewrite Z.land_spec, Z.bits_0; change (n * 16) with (n * 2 ^ 4);
    destruct (Z_lt_le_dec k 4); [rewrite Z.mul_pow2_bits_low by lia; reflexivity|
      replace (Z.testbit 2 k) with false by (symmetry; change 2 with (2 ^ 1); apply Z.pow2_bits_false; lia); apply andb_false_r]).
  apply Z.add_nocarry_lxor. apply Z.bits_inj'; intros k K; rewrite Z.land_spec, Z.bits_0; change (n * 16) with (n * 2 ^ 4).
    destruct (Z_lt_le_dec k 4); [rewrite Z.mul_pow2_bits_low by lia; reflexivity|
      replace (Z.testbit 2 k) with false by (symmetry; change 2 with (2 ^ 1); apply Z.pow2_bits_false; lia); apply andb_false_r].
Qed.
(** constants that can at least be written: the text of a double fits its buffer *)
Definition cwr (v : cval) : Prop :=
  match v with CDbl d => exists s, dbl_string d = Ok s | CStr s => small_str s | _ => True end.
Lemma dbl_string_short d s : dbl_string d = Ok s -> zlen s < 40.
Proof.
  unfold dbl_string. destruct (zlen (fmt16f d) + 1 >? 40) eqn:C; [discriminate|]. intros E. injection E as <-.
  unfold ztake, zlen. rewrite firstn_length. unfold zlen in C. lia.
Qed.
Lemma write_const siz out v : cwr v -> WRITE_CONST siz out v = wput siz out (tbytes (TC v)).
Proof.
  intros H. destruct v as [w|s|d| |p]; cbn [WRITE_CONST tbytes cwr] in *.
  - reflexivity.
  - unfold small_str in H. pose proof (zlen_nonneg s). 
    replace (u32 (u32 (zlen s + 1) * 16)) with ((zlen s + 1) * 16) by (unfold u32, two32; lia).
    unfold WRITE_PN. apply wput_seq.
  - destruct H as [s E]. pose proof (dbl_string_short _ _ E). pose proof (zlen_nonneg s). unfold dtext. rewrite E. cbn [bind].
    replace (u32 (u32 (zlen s + 1) * 16)) with ((zlen s + 1) * 16) by (unfold u32, two32; lia).
    rewrite lor2 by lia. unfold WRITE_PN. apply wput_seq.
  - reflexivity.
  - reflexivity.
Qed.
Lemma write_consts siz l : Forall cwr l -> forall out, zlen out <= siz -> wconsts siz out l = wput siz out (tb (map TC l)).
Proof.
  induction 1 as [|v l H HL IH]; intros out LO; cbn [wconsts map].
  - rewrite wput_nil by exact LO. reflexivity.
  - rewrite tb_cons. rewrite write_const by exact H. rewrite <- wput_seq.
    destruct (wput siz out (tbytes (TC v))) as [o| |] eqn:E; cbn [bind]; [|reflexivity|reflexivity].
    apply IH. exact (wput_le _ _ _ _ E).
Qed.
Lemma write_values siz l out : Forall cwr l -> WRITE_VALUES siz out l = wput siz out (tb (vtoks l)).
Proof.
  intros H. unfold WRITE_VALUES, vtoks, WRITE_U8. rewrite tb_cons, <- wput_seq. cbn [tbytes].
  destruct (wput siz out [zlen l mod 256]) as [o| |] eqn:E; cbn [bind]; [|reflexivity|reflexivity].
  apply write_consts; [exact H|exact (wput_le _ _ _ _ E)].
Qed.
Inductive pwr : proto -> Prop :=
| PWR f : cwr (pname f) -> cwr (psource f) -> Forall cwr (psig f) -> cwr (pstack f) -> Forall cwr (pvalues f) ->
    Forall cwr (ppaths f) -> Forall cwr (plocals f) -> Forall cwr (pupvals f) ->
    (forall g, In g (pprotos f) -> pwr g) -> pwr f.
Lemma dump_eq siz f : pwr f -> forall out, proto_dumpbc siz out f = wput siz out (tb (ptoks f)).
Proof.
  induction f as [f IH] using proto_ind'. intros W out. inversion W as [f' W1 W2 W3 W4 W5 W6 W7 W8 W9 EQ]. subst f'.
  destruct f as [name source sig stack values paths locals upvals protos code s1 s2 s3].
  cbn [pname psource psig pstack pvalues ppaths plocals pupvals pprotos pasm] in *.
  cbn [proto_dumpbc ptoks pname psource psig pstack pvalues ppaths plocals pupvals pprotos pasm].
  rewrite !tb_cons, !tb_app, !tb_cons, !tb_app, !tb_cons, tb_app.
  rewrite write_const by exact W1. apply wput_bind. intros o1.
  rewrite write_const by exact W2. apply wput_bind. intros o2.
  rewrite write_values by exact W3. apply wput_bind. intros o3.
  rewrite write_const by exact W4. apply wput_bind. intros o4.
  rewrite write_values by exact W5. apply wput_bind. intros o5.
  rewrite write_values by exact W6. apply wput_bind. intros o6.
  rewrite write_values by exact W7. apply wput_bind. intros o7.
  rewrite write_values by exact W8. apply wput_bind. intros o8.
  unfold WRITE_U8. cbn [tbytes].
  replace ([zlen protos mod 256] ++ tb (concat (map ptoks protos)) ++ tb [TW (zlen code); TB code])
    with (([zlen protos mod 256] ++ tb (concat (map ptoks protos))) ++ tb [TW (zlen code); TB code]) by (rewrite <- app_assoc; reflexivity).
  rewrite <- wput_seq.
  replace (wput siz o8 ([zlen protos mod 256] ++ tb (concat (map ptoks protos)))) with
    (do out0 <- wput siz o8 [zlen protos mod 256];
     (fix wprotos (out1 : list Z) (l : list proto) {struct l} : res (list Z) :=
        match l with [] => Ok out1 | g :: l0 => do out2 <- proto_dumpbc siz out1 g; wprotos out2 l0 end) out0 protos).
  - destruct (wput siz o8 [zlen protos mod 256]) as [o9| |]; cbn [bind]; [|reflexivity|reflexivity].
    match goal with |- (do out0 <- ?r; _) = _ => destruct r as [o10| |] end; cbn [bind]; [|reflexivity|reflexivity].
    unfold WRITE_PN, tb. cbn [map concat tbytes]. rewrite app_nil_r. apply wput_seq.
  - rewrite <- wput_seq. destruct (wput siz o8 [zlen protos mod 256]) as [o9| |] eqn:E9; cbn [bind]; [|reflexivity|reflexivity].
    apply wput_le in E9. clear - IH W9 E9. revert o9 E9. induction protos as [|g ps IHp]; intros o9 E9.
    + cbn. rewrite wput_nil by exact E9. reflexivity.
    + cbn [map concat]. rewrite tb_app, <- wput_seq. rewrite (IH g) by (try (left; reflexivity); apply W9; left; reflexivity).
      destruct (wput siz o9 (tb (ptoks g))) as [o10| |] eqn:E10; cbn [bind]; [|reflexivity|reflexivity].
      apply IHp; [intros; apply IH; [right; assumption|assumption]|intros; apply W9; right; assumption|exact (wput_le _ _ _ _ E10)].
Qed.
Lemma cok_cwr v : cok v -> cwr v.
Proof.
  destruct v as [w|s|d| |p]; cbn; auto. intros (A & B & C).
  destruct (C55_roundtrip d [0] A B C) as (text & E & _); [cbn; lia|]. eauto.
Qed.
Lemma lok_cwr l : lok l -> Forall cwr l.
Proof. intros [_ H]. eapply Forall_impl; [|exact H]. apply cok_cwr. Qed.
Lemma pwf_pwr top f : pwf top f -> pwr f.
Proof.
  revert top. induction f as [f IH] using proto_ind'. intros top W. inversion W as [t f' A B C D E F G H I J K L M N EQ]. subst.
  constructor; auto using cok_cwr, lok_cwr.
  - rewrite B. destruct top; exact Logic.I.
  - intros g Hg. apply (IH g Hg false), J, Hg.
Qed.

(** ** reading *)
(** [at mem p ts]: at position p the memory holds the tokens ts and then the NUL *)
Definition at_ (mem : list Z) (p : Z) (ts : list token) : Prop :=
  (exists pre, mem = pre ++ tb ts ++ [0] /\ p = zlen pre) /\ safe ts.
Lemma safe_tail t ts : safe (t :: ts) -> safe ts.
Proof. intros H a d b E. apply (H (t :: a) d b). rewrite E. reflexivity. Qed.
Lemma zsub_mid (pre l post : list Z) : zsub (pre ++ l ++ post) (zlen pre) (zlen l) = l.
Proof.
  unfold zsub, zlen. rewrite !Nat2Z.id. rewrite skipn_app, skipn_all, Nat.sub_diag. cbn [skipn app].
  rewrite firstn_app, firstn_all, Nat.sub_diag. cbn [firstn]. apply app_nil_r.
Qed.
Lemma rbytes_mid (pre l post : list Z) n : n = zlen l -> rbytes (pre ++ l ++ post) (zlen pre) n = Ok l.
Proof.
  intros ->. unfold rbytes. pose proof (zlen_nonneg pre). pose proof (zlen_nonneg l). pose proof (zlen_nonneg post). rewrite !zlen_app.
  replace ((0 <=? zlen pre) && (0 <=? zlen l) && (zlen pre + zlen l <=? zlen pre + (zlen l + zlen post))) with true by lia.
  rewrite zsub_mid. reflexivity.
Qed.
Lemma zlen_le n v : zlen (le n v) = Z.of_nat n.
Proof. unfold zlen. rewrite le_len. reflexivity. Qed.
Lemma read_pn_mid pre w post : 0 <= w < two64 -> READ_PN 8 (pre ++ le 8 w ++ post) (zlen pre) = Ok (w, zlen pre + 8).
Proof.
  intros H. unfold READ_PN. rewrite rbytes_mid by (rewrite zlen_le; reflexivity). cbn [bind]. rewrite unle_le; [reflexivity|].
  change (256 ^ Z.of_nat 8) with two64. exact H.
Qed.
Lemma zdrop_mid (pre post : list Z) : zdrop (zlen pre) (pre ++ post) = post.
Proof. unfold zdrop, zlen. rewrite Nat2Z.id, skipn_app, skipn_all, Nat.sub_diag. reflexivity. Qed.
Lemma land2_str n : 0 <= n -> Z.land (n * 16) 2 = 0.
Proof.
  intros H. apply Z.bits_inj'; intros k K. rewrite Z.land_spec, Z.bits_0. change (n * 16) with (n * 2 ^ 4).
  destruct (Z_lt_le_dec k 4); [rewrite Z.mul_pow2_bits_low by lia; reflexivity|].
  replace (Z.testbit 2 k) with false by (symmetry; change 2 with (2 ^ 1); apply Z.pow2_bits_false; lia). apply andb_false_r.
Qed.
Lemma land2_dbl n : 0 <= n -> Z.land (n * 16 + 2) 2 = 2.
Proof. intros H. rewrite <- lor2 by exact H. rewrite Z.land_lor_distr_l, land2_str by exact H. reflexivity. Qed.
Lemma lxor2_dbl n : 0 <= n -> Z.lxor (n * 16 + 2) 2 = n * 16.
Proof. intros H. rewrite Z.add_nocarry_lxor by (apply land2_str; exact H). rewrite Z.lxor_assoc, Z.lxor_nilpotent, Z.lxor_0_r. reflexivity. Qed.
Lemma shiftr4 n : Z.shiftr (n * 16) 4 = n.
Proof. rewrite Z.shiftr_div_pow2 by lia. change (2 ^ 4) with 16. apply Z.div_mul. lia. Qed.
Lemma read_const mem p v ts : at_ mem p (TC v :: ts) -> cok v ->
  exists p', READ_CONST 8 mem p = Ok (v, p') /\ at_ mem p' ts.
Proof.
  intros [(pre & EM & EP) SF] OK. pose proof (zlen_nonneg pre) as P0.
  destruct v as [w|s|d| |q]; cbn [cok] in OK; try contradiction.
  - destruct OK as [R NP]. exists (p + 8). rewrite tb_cons in EM. cbn [tbytes] in EM. rewrite <- app_assoc in EM.
    subst mem p. unfold READ_CONST. rewrite read_pn_mid by exact R. cbn [bind]. rewrite NP. split; [reflexivity|].
    split; [|exact (safe_tail _ _ SF)]. exists (pre ++ le 8 w). rewrite <- app_assoc, zlen_app, zlen_le. split; reflexivity.
  - unfold small_str in OK. pose proof (zlen_nonneg s) as S0. rewrite tb_cons in EM. cbn [tbytes] in EM. rewrite <- !app_assoc in EM.
    exists (p + 8 + zlen s). subst mem p. unfold READ_CONST. rewrite read_pn_mid by (unfold two64; lia). cbn [bind].
    assert (PT : PN_IS_PTR ((zlen s + 1) * 16) = true) by (rewrite PN_IS_PTR_eq by (unfold two64; lia); lia).
    rewrite PT, land2_str by lia. cbn [negb Z.eqb]. rewrite shiftr4. replace (zlen s + 1 - 1) with (zlen s) by lia.
    replace (zlen s <? 0) with false by lia.
    replace (pre ++ le 8 ((zlen s + 1) * 16) ++ s ++ tb ts ++ [0]) with ((pre ++ le 8 ((zlen s + 1) * 16)) ++ s ++ (tb ts ++ [0])) by (rewrite <- !app_assoc; reflexivity).
    replace (zlen pre + 8) with (zlen (pre ++ le 8 ((zlen s + 1) * 16))) by (rewrite zlen_app, zlen_le; reflexivity).
    rewrite rbytes_mid by reflexivity. cbn [bind]. split; [reflexivity|]. split; [|exact (safe_tail _ _ SF)].
    exists ((pre ++ le 8 ((zlen s + 1) * 16)) ++ s). rewrite <- !app_assoc. split; [reflexivity|]. rewrite !zlen_app. lia.
  - destruct OK as (O1 & O2 & O3). pose proof (SF [] d ts eq_refl) as EN.
    destruct (C55_roundtrip d (tb ts ++ [0]) O1 O2 O3 EN) as (s & ES & SL & RT).
    pose proof (zlen_nonneg s) as S0. rewrite tb_cons in EM. cbn [tbytes] in EM. unfold dtext in EM. rewrite ES in EM. rewrite <- !app_assoc in EM.
    exists (p + 8 + zlen s). subst mem p. unfold READ_CONST. rewrite read_pn_mid by (unfold two64; lia). cbn [bind].
    assert (PT : PN_IS_PTR ((zlen s + 1) * 16 + 2) = true) by (rewrite PN_IS_PTR_eq by (unfold two64; lia); lia).
    rewrite PT, land2_dbl by lia. cbn [negb Z.eqb]. rewrite lxor2_dbl by lia. rewrite shiftr4. replace (zlen s + 1 - 1) with (zlen s) by lia.
    replace (zlen s <? 0) with false by lia.
    replace (zdrop (zlen pre + 8) (pre ++ le 8 ((zlen s + 1) * 16 + 2) ++ s ++ tb ts ++ [0])) with (s ++ tb ts ++ [0]).
    2: { replace (zlen pre + 8) with (zlen (pre ++ le 8 ((zlen s + 1) * 16 + 2))) by (rewrite zlen_app, zlen_le; reflexivity).
         rewrite (app_assoc pre). rewrite zdrop_mid. reflexivity. }
    rewrite RT. split; [reflexivity|]. split; [|exact (safe_tail _ _ SF)].
    exists ((pre ++ le 8 ((zlen s + 1) * 16 + 2)) ++ s). rewrite <- !app_assoc. split; [reflexivity|]. rewrite !zlen_app, zlen_le. lia.
Qed.
Lemma read_u8 mem p n ts : at_ mem p (TU n :: ts) -> 0 <= n < 256 -> READ_U8 mem p = Ok (n, p + 1) /\ at_ mem (p + 1) ts.
Proof.
  intros [(pre & EM & EP) SF] H. rewrite tb_cons in EM. cbn [tbytes] in EM. unfold READ_U8. pose proof (zlen_nonneg pre). pose proof (zlen_nonneg (tb ts ++ [0])).
  subst mem p. cbn [app]. rewrite rd_ok by (rewrite zlen_app, zlen_cons; lia). cbn [bind].
  rewrite znth_app2, Z.sub_diag by lia. rewrite znth_cons0. rewrite Z.mod_small by lia. split; [reflexivity|].
  split; [|exact (safe_tail _ _ SF)]. exists (pre ++ [n]). rewrite <- app_assoc, zlen_app. split; reflexivity.
Qed.
Lemma read_consts l : Forall cok l -> forall mem p ts, at_ mem p (map TC l ++ ts) ->
  exists p', rconsts (length l) 8 mem p = Ok (l, p') /\ at_ mem p' ts.
Proof.
  induction 1 as [|v l H HL IH]; intros mem p ts A.
  - exists p. split; [reflexivity|exact A].
  - cbn [map app] in A. destruct (read_const _ _ _ _ A H) as (p1 & E1 & A1). destruct (IH _ _ _ A1) as (p2 & E2 & A2).
    exists p2. cbn [length rconsts]. rewrite E1. cbn [bind]. rewrite E2. cbn [bind]. split; [reflexivity|exact A2].
Qed.
Lemma read_values l mem p ts : lok l -> at_ mem p (vtoks l ++ ts) ->
  exists p', READ_VALUES 8 mem p = Ok (l, p') /\ at_ mem p' ts.
Proof.
  intros [L C] A. unfold vtoks in A. cbn [app] in A. destruct (read_u8 _ _ _ _ A) as [E1 A1]; [pose proof (zlen_nonneg l); lia|].
  destruct (read_consts l C _ _ _ A1) as (p2 & E2 & A2). exists p2. unfold READ_VALUES. rewrite E1. cbn [bind].
  unfold zlen. rewrite Nat2Z.id. split; [exact E2|exact A2].
Qed.
Fixpoint pdepth (f : proto) : nat := S (fold_right Nat.max 0%nat (map pdepth (pprotos f))).
Lemma depth_child f g : In g (pprotos f) -> (pdepth g < pdepth f)%nat.
Proof.
  intros H. destruct f as [? ? ? ? ? ? ? ? ps ? ? ? ?]. cbn [pdepth pprotos] in *. apply Nat.lt_succ_r.
  induction ps as [|x ps IH]; [contradiction|]. cbn [map fold_right]. destruct H as [->|H]; [lia|]. specialize (IH H). lia.
Qed.
Lemma load_ok : forall fuel f top mem p ts, pwf top f -> (pdepth f <= fuel)%nat -> at_ mem p (ptoks f ++ ts) ->
  exists p', proto_load fuel (if top : bool then CImm PN_NIL else CUp) 8 mem p = Ok (f, p') /\ at_ mem p' ts.
Proof.
  induction fuel as [|fuel IH]; intros f top mem p ts W D A; [destruct f; cbn in D; lia|].
  assert (DC := depth_child f).
  inversion W as [t f' W1 W2 W3 W4 W5 W6 W7 W8 W9 W10 W11 W12 W13 W14 EQ1 EQ2]. subst t f'.
  destruct f as [name source sig stack values paths locals upvals protos code s1 s2 s3].
  cbn [pname psource psig pstack pvalues ppaths plocals pupvals pprotos pasm plocalsize pupvalsize ppathsize] in *.
  cbn [ptoks pname psource psig pstack pvalues ppaths plocals pupvals pprotos pasm] in A.
  cbn [app] in A. repeat (rewrite <- app_assoc in A; cbn [app] in A).
  cbn [proto_load].
  destruct (read_const _ _ _ _ A W1) as (p1 & E1 & A1). rewrite E1. cbn [bind].
  (* source: CUp is written as nil *)
  assert (A1' : at_ mem p1 (TC (CImm PN_NIL) :: vtoks sig ++ TC stack :: vtoks values ++ vtoks paths ++ vtoks locals ++ vtoks upvals ++
     TU (zlen protos) :: concat (map ptoks protos) ++ TW (zlen code) :: TB code :: ts)).
  { rewrite W2 in A1. destruct top; [exact A1|]. destruct A1 as [(pre & EM & EP) SF]. split.
    - exists pre. split; [exact EM|exact EP].
    - intros a d b E. destruct a as [|t a]; [discriminate|]. injection E as <- E. apply (SF (TC CUp :: a) d b). cbn [app]. f_equal. exact E. }
  destruct (read_const _ _ _ _ A1' ltac:(cbn; split; [unfold PN_NIL, two64; lia|reflexivity])) as (p2 & E2 & A2). rewrite E2. cbn [bind].
  change (PN_NIL =? PN_NIL) with true. cbn iota.
  destruct (read_values _ _ _ _ W3 A2) as (p3 & E3 & A3). rewrite E3. cbn [bind].
  destruct (read_const _ _ _ _ A3 W4) as (p4 & E4 & A4). rewrite E4. cbn [bind].
  destruct (read_values _ _ _ _ W5 A4) as (p5 & E5 & A5). rewrite E5. cbn [bind].
  destruct (read_values _ _ _ _ W6 A5) as (p6 & E6 & A6). rewrite E6. cbn [bind].
  destruct (read_values _ _ _ _ W7 A6) as (p7 & E7 & A7). rewrite E7. cbn [bind].
  destruct (read_values _ _ _ _ W8 A7) as (p8 & E8 & A8). rewrite E8. cbn [bind].
  destruct (read_u8 _ _ _ _ A8) as [E9 A9]; [pose proof (zlen_nonneg protos); lia|]. rewrite E9. cbn [bind].
  assert (RP : exists p', rprotos (proto_load fuel CUp 8 mem) (Z.to_nat (zlen protos)) (p8 + 1) = Ok (protos, p') /\
     at_ mem p' (TW (zlen code) :: TB code :: ts)).
  { unfold zlen at 1. rewrite Nat2Z.id. generalize (p8 + 1) A9. clear - IH W10 DC D.
    assert (DP : forall g, In g protos -> (pdepth g <= fuel)%nat) by (intros g Hg; specialize (DC g Hg); lia). clear DC D.
    generalize dependent (TW (zlen code) :: TB code :: ts). intros ts'. induction protos as [|g ps IHp]; intros p A.
    - exists p. split; [reflexivity|exact A].
    - cbn [map concat] in A. rewrite <- app_assoc in A.
      destruct (IH g false _ _ _ (W10 g (or_introl eq_refl)) (DP g (or_introl eq_refl)) A) as (p1 & E1 & A1).
      cbn [length rprotos]. rewrite E1. cbn [bind].
      destruct (IHp (fun g H => W10 g (or_intror H)) (fun g H => DP g (or_intror H)) p1 A1) as (p2 & E2 & A2).
      rewrite E2. cbn [bind]. exists p2. split; [reflexivity|exact A2]. }
  destruct RP as (p10 & E10 & A10). rewrite E10. cbn [bind].
  destruct A10 as [(pre & EM & EP) SF]. rewrite !tb_cons in EM. cbn [tbytes] in EM. rewrite <- !app_assoc in EM.
  pose proof (zlen_nonneg code) as C0. subst mem p10. rewrite read_pn_mid by lia. cbn [bind].
  replace (pre ++ le 8 (zlen code) ++ code ++ tb ts ++ [0]) with ((pre ++ le 8 (zlen code)) ++ code ++ (tb ts ++ [0])) by (rewrite <- !app_assoc; reflexivity).
  replace (zlen pre + 8) with (zlen (pre ++ le 8 (zlen code))) by (rewrite zlen_app, zlen_le; reflexivity).
  rewrite rbytes_mid by reflexivity. cbn [bind].
  exists (zlen (pre ++ le 8 (zlen code)) + zlen code). split.
  - do 2 f_equal. rewrite W2. destruct top; f_equal; congruence.
  - split; [|exact (safe_tail _ _ (safe_tail _ _ SF))]. exists ((pre ++ le 8 (zlen code)) ++ code). rewrite <- !app_assoc. split; [reflexivity|].
    rewrite !zlen_app. lia.
Qed.

Lemma toks_nonempty f : 8 <= zlen (tb (ptoks f)).
Proof.
  assert (C : forall v, 8 <= zlen (tbytes (TC v))).
  { intros v. destruct v as [w|s|d| |q]; cbn [tbytes]; rewrite ?zlen_app, zlen_le; try lia.
    - pose proof (zlen_nonneg s). lia.
    - pose proof (zlen_nonneg (dtext d)). lia. }
  destruct f as [name f1 f2 f3 f4 f5 f6 f7 f8 f9 s1 s2 s3]. cbn [ptoks]. rewrite tb_cons, zlen_app. specialize (C name). cbn [DumpModel.pname].
  match goal with |- _ <= _ + zlen ?r => pose proof (zlen_nonneg r) end. lia.
Qed.

(** ** C33 *)
(** the size of the dump *)
Definition dump_size (f : proto) : Z := 8 + zlen (tb (ptoks f)).
Theorem C33_roundtrip : forall f, pwf true f -> safe (ptoks f) -> dump_size f <= 8208 ->
  exists bytes, source_dumpbc f = Ok bytes /\ zlen bytes = dump_size f /\
    forall fuel, (pdepth f <= fuel)%nat -> source_load fuel bytes = Ok (Some f).
Proof.
  intros f W SF SZ. unfold dump_size in *. exists (header ++ tb (ptoks f)). pose proof (zlen_nonneg (tb (ptoks f))) as T0.
  split; [|split].
  - unfold source_dumpbc. change (wput dump_siz [] header) with (Ok header). cbn [bind]. rewrite dump_eq by (eapply pwf_pwr; exact W).
    unfold wput. change (zlen header) with 8. change dump_siz with 8208. replace (8 + zlen (tb (ptoks f)) <=? 8208) with true by lia. reflexivity.
  - rewrite zlen_app. reflexivity.
  - intros fuel FU. unfold source_load. rewrite zlen_app. change (zlen header) with 8.
    assert (NE : 0 < zlen (tb (ptoks f))).
    { pose proof (toks_nonempty f). lia. }
    replace (8 + zlen (tb (ptoks f)) <=? 8) with false by lia.
    replace (ztake 4 (header ++ tb (ptoks f))) with POTION_SIG by reflexivity.
    destruct (list_eq_dec Z.eq_dec POTION_SIG POTION_SIG) as [_|N]; [|contradiction]. cbn [negb orb].
    replace (znth (header ++ tb (ptoks f)) 7) with 8 by reflexivity.
    destruct (load_ok fuel f true ((header ++ tb (ptoks f)) ++ [0]) 8 [] W FU) as (p' & E & _).
    { rewrite app_nil_r. split; [|exact SF]. exists header. rewrite <- app_assoc. split; reflexivity. }
    rewrite E. reflexivity.
Qed.
(** without floating-point constants nothing can run on *)
Fixpoint nodbl (f : proto) : Prop :=
  let nd v := match v with CDbl _ => False | _ => True end in
  nd (pname f) /\ nd (psource f) /\ Forall nd (psig f) /\ nd (pstack f) /\ Forall nd (pvalues f) /\ Forall nd (ppaths f) /\
  Forall nd (plocals f) /\ Forall nd (pupvals f) /\ fold_right and True (map nodbl (pprotos f)).
Lemma nodbl_toks f : nodbl f -> forall d, ~ In (TC (CDbl d)) (ptoks f).
Proof.
  induction f as [f IH] using proto_ind'. intros N d. destruct f as [name source sig stack values paths locals upvals protos code s1 s2 s3].
  cbn [nodbl pname psource psig pstack pvalues ppaths plocals pupvals pprotos pasm] in *.
  destruct N as (N1 & N2 & N3 & N4 & N5 & N6 & N7 & N8 & N9).
  assert (V : forall l, Forall (fun v => match v with CDbl _ => False | _ => True end) l -> ~ In (TC (CDbl d)) (vtoks l)).
  { intros l H [K|K]; [discriminate|]. apply in_map_iff in K. destruct K as (v & EV & IV). injection EV as ->. rewrite Forall_forall in H. apply (H _ IV). }
  cbn [ptoks pname psource psig pstack pvalues ppaths plocals pupvals pprotos pasm].
  intros H. destruct H as [H|[H|H]]; [injection H as H; subst; contradiction|injection H as H; subst; contradiction|].
  apply in_app_or in H. destruct H as [H|H]; [exact (V _ N3 H)|]. destruct H as [H|H]; [injection H as H; subst; contradiction|].
  apply in_app_or in H. destruct H as [H|H]; [exact (V _ N5 H)|]. apply in_app_or in H. destruct H as [H|H]; [exact (V _ N6 H)|].
  apply in_app_or in H. destruct H as [H|H]; [exact (V _ N7 H)|]. apply in_app_or in H. destruct H as [H|H]; [exact (V _ N8 H)|].
  destruct H as [H|H]; [discriminate|]. apply in_app_or in H. destruct H as [H|H]; [|destruct H as [H|[H|H]]; [discriminate|discriminate|contradiction]].
  apply in_concat in H. destruct H as (ts & HT & HI). apply in_map_iff in HT. destruct HT as (g & <- & HG).
  apply (IH g HG) in HI; [exact HI|]. clear - N9 HG. induction protos as [|x ps IHp]; [contradiction|]. cbn in N9. destruct HG as [->|HG]; [apply N9|apply IHp; [apply N9|exact HG]].
Qed.
Theorem C33_roundtrip_no_floats : forall f, pwf true f -> nodbl f -> dump_size f <= 8208 ->
  exists bytes, source_dumpbc f = Ok bytes /\
    forall fuel, (pdepth f <= fuel)%nat -> source_load fuel bytes = Ok (Some f).
Proof.
  intros f W N S. destruct (C33_roundtrip f W) as (b & E & _ & L); [|exact S|eauto].
  intros a d bb EQ. exfalso. apply (nodbl_toks f N d). rewrite EQ. apply in_or_app. right. left. reflexivity.
Qed.
(** a function with a nested function, strings, integers, a float *)
Definition ex_inner : proto :=
  mkProto (CStr [102]) CUp [CStr [120]; CImm 221] (CImm 5) [] [] [CStr [120]] [CStr [121; 121]] [] [4; 0; 16; 0; 46; 0; 0; 0] 1 1 0.
Definition ex_proto : proto :=
  mkProto (CImm 0) (CImm 0) [] (CImm 7) [CDbl (mkDbl 5 (-1)); CStr [104; 105; 33]; CImm 100001] [] [CStr [121; 121]] [] [ex_inner]
    [2; 0; 0; 0; 46; 0; 0; 0] 1 0 0.
Lemma ends_b r : match r with [] => true | c :: _ => negb ((48 <=? c) && (c <=? 57)) && negb (c =? 101) && negb (c =? 69) end = true -> ends_number r.
Proof. destruct r as [|c r]; [intros; exact I|]. cbn. lia. Qed.
Lemma cok_nil : cok (CImm 0). Proof. cbn. split; [unfold two64; lia|reflexivity]. Qed.
Example C33_example : pwf true ex_proto /\ safe (ptoks ex_proto) /\ dump_size ex_proto <= 8208 /\ pdepth ex_proto = 2%nat.
Proof.
  assert (CI : forall w, 0 <= w < two64 -> PN_IS_PTR w = false -> cok (CImm w)) by (intros; cbn; auto).
  assert (CS : forall s, zlen s < 100000000 -> cok (CStr s)) by (intros; exact H).
  split; [|split; [|split; [vm_compute; congruence|reflexivity]]].
  - assert (CD : cok (CDbl (mkDbl 5 (-1)))).
    { split; [right; split; vm_compute; reflexivity|]. split; [left; unfold dbl_ge_half; vm_compute; congruence|unfold dbl_le; vm_compute; congruence]. }
    assert (L0 : lok []) by (split; [reflexivity|constructor]).
    apply PWF; unfold ex_proto; cbn [pname psource psig pstack pvalues ppaths plocals pupvals pprotos pasm plocalsize pupvalsize ppathsize];
      [apply CI; [unfold two64; lia|reflexivity]|reflexivity|exact L0|apply CI; [unfold two64; lia|reflexivity]
      | split; [reflexivity|repeat apply Forall_cons; [exact CD|apply CS; reflexivity|apply CI; [unfold two64; lia|reflexivity]|constructor]]
      | exact L0 | split; [reflexivity|repeat apply Forall_cons; [apply CS; reflexivity|constructor]] | exact L0 | reflexivity | | reflexivity | reflexivity | reflexivity | reflexivity].
    intros g [<-|[]].
    apply PWF; unfold ex_inner; cbn [pname psource psig pstack pvalues ppaths plocals pupvals pprotos pasm plocalsize pupvalsize ppathsize];
      [apply CS; reflexivity|reflexivity|split; [reflexivity|repeat apply Forall_cons; [apply CS; reflexivity|apply CI; [unfold two64; lia|reflexivity]|constructor]]
      |apply CI; [unfold two64; lia|reflexivity]|exact L0|exact L0
      |split; [reflexivity|repeat apply Forall_cons; [apply CS; reflexivity|constructor]]
      |split; [reflexivity|repeat apply Forall_cons; [apply CS; reflexivity|constructor]]|reflexivity|intros g []|reflexivity|reflexivity|reflexivity|reflexivity].
  - intros a d b E.
    assert (K : forall x, In x (a ++ [TC (CDbl d)]) -> True) by auto.
    do 6 (destruct a as [|? a]; [try discriminate E; injection E as <- <-; apply ends_b; vm_compute; reflexivity|injection E as _ E]).
    exfalso. assert (I : In (TC (CDbl d)) (a ++ TC (CDbl d) :: b)) by (apply in_or_app; right; left; reflexivity).
    rewrite <- E in I. cbn in I. repeat destruct I as [I|I]; try discriminate I. exact I.
Qed.
(** refutations of the unrestricted claim *)
(** 1: any function whose dump is larger than the fixed buffer overflows it *)
Theorem C33_large_function_refuted : forall f, pwr f -> 8208 < dump_size f -> source_dumpbc f = UB.
Proof.
  intros f W S. unfold dump_size in S. unfold source_dumpbc. change (wput dump_siz [] header) with (Ok header). cbn [bind]. rewrite dump_eq by exact W.
  unfold wput. change (zlen header) with 8. change dump_siz with 8208. replace (8 + zlen (tb (ptoks f)) <=? 8208) with false by lia. reflexivity.
Qed.
(** 2: a function with 256 or more constants, locals, ... is never what a load
    returns, whatever the file holds; so dumping one and loading it back cannot
    give it *)
Lemma rconsts_len n pn mem : forall p l p', rconsts n pn mem p = Ok (l, p') -> length l = n.
Proof.
  induction n as [|n IH]; intros p l p' H; cbn [rconsts] in H; [injection H as <- _; reflexivity|].
  destruct (READ_CONST pn mem p) as [[v p1]| |]; cbn [bind] in H; [|discriminate|discriminate].
  destruct (rconsts n pn mem p1) as [[l1 p2]| |] eqn:E; cbn [bind] in H; [|discriminate|discriminate].
  injection H as <- _. cbn [length]. f_equal. eapply IH, E.
Qed.
Lemma rvalues_len pn mem p l p' : Forall (fun b => 0 <= b < 256) mem -> READ_VALUES pn mem p = Ok (l, p') -> zlen l < 256.
Proof.
  intros B H. unfold READ_VALUES, READ_U8, rd in H. destruct (inb mem p) eqn:I; cbn [bind] in H; [|discriminate].
  apply rconsts_len in H. apply inb_true in I. rewrite Forall_forall in B. specialize (B _ (znth_In _ _ I)). unfold zlen. lia.
Qed.
Theorem C33_many_constants_refuted : forall fuel buf f, Forall (fun b => 0 <= b < 256) buf ->
  source_load fuel buf = Ok (Some f) ->
  zlen (psig f) < 256 /\ zlen (pvalues f) < 256 /\ zlen (ppaths f) < 256 /\ zlen (plocals f) < 256 /\ zlen (pupvals f) < 256.
Proof.
  intros fuel buf f B H. unfold source_load in H. destruct ((zlen buf <=? 8) || _); [discriminate|].
  destruct fuel as [|fuel]; [discriminate|]. 
  assert (B' : Forall (fun b => 0 <= b < 256) (buf ++ [0])) by (apply Forall_app; split; [exact B|repeat constructor; lia]).
  set (mem := buf ++ [0]) in *. clearbody mem. cbn [proto_load] in H.
  destruct (READ_CONST _ _ 8) as [[x1 p1]| |]; cbn [bind] in H; [|discriminate|discriminate].
  destruct (READ_CONST _ _ p1) as [[x2 p2]| |]; cbn [bind] in H; [|discriminate|discriminate].
  destruct (READ_VALUES _ _ p2) as [[x3 p3]| |] eqn:E3; cbn [bind] in H; [|discriminate|discriminate].
  destruct (READ_CONST _ _ p3) as [[x4 p4]| |]; cbn [bind] in H; [|discriminate|discriminate].
  destruct (READ_VALUES _ _ p4) as [[x5 p5]| |] eqn:E5; cbn [bind] in H; [|discriminate|discriminate].
  destruct (READ_VALUES _ _ p5) as [[x6 p6]| |] eqn:E6; cbn [bind] in H; [|discriminate|discriminate].
  destruct (READ_VALUES _ _ p6) as [[x7 p7]| |] eqn:E7; cbn [bind] in H; [|discriminate|discriminate].
  destruct (READ_VALUES _ _ p7) as [[x8 p8]| |] eqn:E8; cbn [bind] in H; [|discriminate|discriminate].
  destruct (READ_U8 _ p8) as [[x9 p9]| |]; cbn [bind] in H; [|discriminate|discriminate].
  destruct (rprotos _ _ p9) as [[x10 p10]| |]; cbn [bind] in H; [|discriminate|discriminate].
  destruct (READ_PN _ _ p10) as [[x11 p11]| |]; cbn [bind] in H; [|discriminate|discriminate].
  destruct (rbytes _ p11 x11) as [x12| |]; cbn [bind] in H; [|discriminate|discriminate].
  injection H as <-. cbn [psig pvalues ppaths plocals pupvals].
  repeat split; eapply rvalues_len; eassumption.
Qed.
(** such a function is dumped without complaint *)
Definition ex_many : proto :=
  mkProto (CImm 0) (CImm 0) [] (CImm 3) (map (fun i => CImm (2 * (i + 2000) + 1)) (zseq 0 300)) [] [] [] [] [46; 0; 0; 0] 0 0 0.
Example ex_many_dumped : exists bytes, source_dumpbc ex_many = Ok bytes /\ zlen bytes = 2450.
Proof. eexists. split; vm_compute; reflexivity. Qed.
(** 3: two adjacent constants, 0.5 and 1048: the float is read back as 0.51 *)
Definition ex_runon : proto :=
  mkProto (CImm 0) (CImm 0) [] (CImm 3) [CDbl (mkDbl 1 (-1)); CImm 2097] [] [] [] [] [46; 0; 0; 0] 0 0 0.
Theorem C33_float_runs_on_refuted : exists bytes f', source_dumpbc ex_runon = Ok bytes /\
  source_load 1 bytes = Ok (Some f') /\ pvalues f' = [CDbl (rnd53 51 100); CImm 2097] /\ f' <> ex_runon.
Proof.
  eexists. eexists. split; [vm_compute; reflexivity|]. split; [vm_compute; reflexivity|]. split; [vm_compute; reflexivity|].
  intros E. apply (f_equal pvalues) in E. vm_compute in E. discriminate.
Qed.
(** 4: a constant that is neither immediate, string nor float is reloaded as nil *)
Theorem C33_other_constant_refuted : forall p, exists bytes f', 
  source_dumpbc (mkProto (CImm 0) (CImm 0) [] (CImm 3) [CObj p] [] [] [] [] [] 0 0 0) = Ok bytes /\
  source_load 1 bytes = Ok (Some f') /\ pvalues f' = [CImm 0].
Proof. intros p. eexists. eexists. split; [vm_compute; reflexivity|]. split; vm_compute; reflexivity. Qed.

(** ** C34 *)
(** anything that is not longer than the header or does not start with the
    signature is rejected *)
Theorem C34_reject : forall fuel buf, zlen buf <= 8 \/ ztake 4 buf <> [112; 7; 8; 110] -> source_load fuel buf = Ok None.
Proof.
  intros fuel buf H. unfold source_load. destruct (Z.leb_spec (zlen buf) 8) as [A|A]; [reflexivity|].
  destruct (list_eq_dec Z.eq_dec (ztake 4 buf) POTION_SIG) as [E|E]; [|reflexivity]. destruct H; [lia|contradiction].
Qed.
(** and nothing else is: a longer buffer with the signature is never reported as
    "not bytecode" *)
Theorem C34_accept : forall fuel buf, 8 < zlen buf -> ztake 4 buf = [112; 7; 8; 110] -> source_load fuel buf <> Ok None.
Proof.
  intros fuel buf L E. unfold source_load. replace (zlen buf <=? 8) with false by lia. rewrite E.
  destruct (list_eq_dec Z.eq_dec [112; 7; 8; 110] POTION_SIG) as [_|N]; [|contradiction]. cbn [negb orb].
  destruct (proto_load _ _ _ _ _) as [[f p]| |]; cbn [bind]; congruence.
Qed.
(** every dump is accepted *)
Theorem C34_dumps_accepted : forall f bytes, pwr f -> source_dumpbc f = Ok bytes -> 
  8 < zlen bytes /\ ztake 4 bytes = [112; 7; 8; 110].
Proof.
  intros f bytes W H. unfold source_dumpbc in H. change (wput dump_siz [] header) with (Ok header) in H. cbn [bind] in H. rewrite dump_eq in H by exact W.
  unfold wput in H. destruct (zlen header + zlen (tb (ptoks f)) <=? dump_siz); [|discriminate]. injection H as H. subst bytes.
  split; [|reflexivity]. change (8 < zlen (header ++ tb (ptoks f))). rewrite zlen_app. change (zlen header) with 8. pose proof (toks_nonempty f). lia.
Qed.
(** but the rest of the header is not looked at: a file of another version, VM or
    word size is accepted, and a truncated file makes the loader read outside it *)
Theorem C34_version_refuted : exists buf f, ztake 8 buf = [112; 7; 8; 110; 99; 99; 99; 8] /\ source_load 1 buf = Ok (Some f).
Proof.
  exists ([112; 7; 8; 110; 99; 99; 99; 8] ++ match source_dumpbc ex_runon with Ok b => zdrop 8 b | _ => [] end).
  eexists. split; vm_compute; reflexivity.
Qed.
Theorem C34_truncated_refuted : exists buf, 8 < zlen buf /\ ztake 4 buf = [112; 7; 8; 110] /\ source_load 1 buf = UB.
Proof. exists (header ++ [0]). split; [vm_compute; reflexivity|]. split; vm_compute; reflexivity. Qed.
