(** Properties C32 (instruction encoding), C48 (inline constants) and C49 (code
    buffers). *)
From Coq Require Import ZifyBool.
From Verif Require Import Base Arr WordModel WordProofs BytesModel PropBytes AsmModel.
Ltac Zify.zify_post_hook ::= Z.div_mod_to_equations.

(** what fits into an instruction *)
Definition fits (x : Z) : Prop := -2048 <= x <= 2047.
Definition code_ok (c : Z) : Prop := 0 <= c < 256.

Lemma sx12_fits x : fits (sx12 x).
Proof. unfold fits, sx12. lia. Qed.
Lemma sx12_id x : fits x <-> sx12 x = x.
Proof. unfold fits, sx12. split; lia. Qed.
Lemma word_parts c a b : 0 <= c < 256 -> 
  op_unword (op_word c a b) = mkOp c (sx12 a) (sx12 b).
Proof.
  intros C. unfold op_unword, op_word. f_equal.
  - lia.
  - unfold sx12. lia.
  - unfold sx12. lia.
Qed.
Lemma unle_le n : forall v, 0 <= v < 256 ^ Z.of_nat n -> unle (le n v) = v.
Proof.
  induction n as [|n IH]; intros v H; [cbn [le unle]; change (256 ^ Z.of_nat 0) with 1 in H; lia|].
  cbn [le unle]. rewrite IH.
  - pose proof (Z.div_mod v 256). lia.
  - replace (Z.of_nat (S n)) with (Z.of_nat n + 1) in H by lia. rewrite Z.pow_add_r in H by lia.
    change (256 ^ 1) with 256 in H. split; [lia|]. apply Z.div_lt_upper_bound; lia.
Qed.
Lemma op_word_range c a b : 0 <= op_word c a b < 256 ^ Z.of_nat 4.
Proof. change (256 ^ Z.of_nat 4) with 4294967296. unfold op_word. lia. Qed.
Lemma le_len n v : length (le n v) = n.
Proof. revert v. induction n; intros v; cbn; congruence. Qed.
Lemma le_bytes n v : Forall (fun x => 0 <= x < 256) (le n v).
Proof. revert v. induction n; intros v; cbn [le]; constructor; auto. lia. Qed.

(** ** C32 *)
(** the bytes of an instruction, and the instruction read from four bytes *)
Definition op_bytes (o : pnop) : list Z := le 4 (op_word (ocode o) (oa o) (ob o)).
Definition op_of_bytes (l : list Z) : pnop := op_unword (unle l).

Theorem C32_encode_decode : forall c a b, code_ok c -> fits a -> fits b ->
  op_of_bytes (op_bytes (mkOp c a b)) = mkOp c a b.
Proof.
  intros c a b C A B. unfold op_of_bytes, op_bytes. cbn [ocode oa ob].
  rewrite unle_le by apply op_word_range. rewrite word_parts by exact C.
  apply sx12_id in A, B. rewrite A, B. reflexivity.
Qed.
(** distinct instructions have distinct encodings *)
Theorem C32_encode_injective : forall c a b c' a' b',
  code_ok c -> fits a -> fits b -> code_ok c' -> fits a' -> fits b' ->
  op_bytes (mkOp c a b) = op_bytes (mkOp c' a' b') -> mkOp c a b = mkOp c' a' b'.
Proof.
  intros. rewrite <- (C32_encode_decode c a b), <- (C32_encode_decode c' a' b') by assumption. congruence.
Qed.
(** every instruction is exactly four bytes *)
Theorem C32_encode_bytes : forall o, length (op_bytes o) = 4%nat /\ Forall (fun x => 0 <= x < 256) (op_bytes o).
Proof. intros o. split; [apply le_len|apply le_bytes]. Qed.
(** what happens to operands that do not fit: they are reduced modulo 4096, so
    the instruction read back differs from the one emitted exactly when an operand
    is out of range *)
Theorem C32_truncation : forall c a b, code_ok c ->
  (op_of_bytes (op_bytes (mkOp c a b)) = mkOp c a b <-> fits a /\ fits b).
Proof.
  intros c a b C. unfold op_of_bytes, op_bytes. cbn [ocode oa ob].
  rewrite unle_le by apply op_word_range. rewrite word_parts by exact C.
  split.
  - intros E. injection E as A B. split; apply sx12_id; assumption.
  - intros [A B]. apply sx12_id in A, B. rewrite A, B. reflexivity.
Qed.
Example C32_example : op_of_bytes (op_bytes (mkOp 38 (-7) 2047)) = mkOp 38 (-7) 2047
  /\ op_bytes (mkOp 38 (-7) 2047) = [38; 249; 255; 127].
Proof. split; vm_compute; reflexivity. Qed.

(** ** C49: the code buffer *)
Record awf (b : casm) : Prop := {
  aw_len : 0 <= alen b <= asiz b;
  aw_siz : asiz b < two32;
  aw_mem : zlen (amem b) = asiz b }.
(** the emitted bytes *)
Definition code (b : casm) : list Z := ztake (alen b) (amem b).
Lemma zlen_code b : awf b -> zlen (code b) = alen b.
Proof. intros W. apply zlen_ztake. destruct W. lia. Qed.

Lemma grow_capa_ok need : need <= lim -> forall fuel capa, 0 <= capa -> capa < two32 -> (Z.to_nat (need - capa) < fuel)%nat ->
  exists c, grow_capa fuel capa need = Ok c /\ capa <= c /\ need <= c /\ c < two32.
Proof.
  intros N. unfold lim, two32 in *. induction fuel as [|fuel IH]; intros capa C0 C1 F; [lia|].
  cbn [grow_capa]. destruct (Z.ltb_spec capa need) as [L|L].
  - assert (U : u32 (capa + ASM_UNIT) = capa + 512) by (unfold u32, ASM_UNIT, two32; lia).
    rewrite U. destruct (IH (capa + 512)) as (c & E & K); [lia|lia|lia|]. exists c. split; [exact E|lia].
  - exists capa. split; [reflexivity|lia].
Qed.
Lemma flex_needs_ok junk b x : junkok junk -> awf b -> 0 <= x -> alen b + x <= lim ->
  exists b', flex_needs (asm_fuel b x) junk x b = Ok b' /\ awf b' /\ alen b' = alen b /\
    alen b + x <= asiz b' /\ code b' = code b.
Proof.
  intros J W X L. destruct W as [W1 W2 W3]. unfold flex_needs. destruct (Z.ltb_spec (asiz b) (alen b + x)) as [C|C].
  - destruct (grow_capa_ok (alen b + x) L (asm_fuel b x) (asiz b)) as (c & E & K1 & K2 & K3); [lia|lia|unfold asm_fuel; lia|].
    rewrite E. cbn [bind]. eexists. split; [reflexivity|]. unfold code. cbn [alen asiz amem].
    split; [constructor; cbn [alen asiz amem]; [lia|lia|rewrite zlen_app, J by lia; lia]|].
    split; [reflexivity|]. split; [lia|].
    unfold ztake. rewrite firstn_app. replace (Z.to_nat (alen b) - length (amem b))%nat with 0%nat by (unfold zlen in W3; lia).
    cbn [firstn]. apply app_nil_r.
  - exists b. repeat split; try lia; auto.
Qed.
Lemma append_ok b src : awf b -> alen b + zlen src <= asiz b -> 
  exists mem, blit (amem b) (alen b) src = Ok mem /\
    awf (mkAsm (u32 (alen b + zlen src)) (asiz b) mem) /\
    code (mkAsm (u32 (alen b + zlen src)) (asiz b) mem) = code b ++ src.
Proof.
  intros [W1 W2 W3] L. pose proof (zlen_nonneg src) as S0.
  destruct (blit_at (amem b) (alen b) src) as (mem & E & ML & MT & _); [lia|lia|].
  exists mem. split; [exact E|].
  assert (U : u32 (alen b + zlen src) = alen b + zlen src) by (unfold u32, two32 in *; lia).
  rewrite U. split; [constructor; cbn [alen asiz amem]; lia|].
  unfold code. cbn [alen amem]. exact MT.
Qed.

(** an emission: an instruction, a value of 1, 2, 4 or 8 bytes, a byte string *)
Inductive emission := EOp (c a b : Z) | EPut (v n : Z) | EStr (s : list Z).
Definition emission_ok (e : emission) : Prop :=
  match e with EPut _ n => n = 1 \/ n = 2 \/ n = 4 \/ n = 8 | _ => True end.
(** the bytes an emission stands for *)
Definition ebytes (e : emission) : list Z :=
  match e with EOp c a b => op_bytes (mkOp c a b) | EPut v n => le (Z.to_nat n) v | EStr s => s end.
Definition emit (junk : Z -> list Z) (b : casm) (e : emission) : res casm :=
  match e with
  | EOp c a b' => asm_op junk b c a b'
  | EPut v n => asm_put junk b v n
  | EStr s => asm_write junk b s
  end.
Fixpoint emits (junk : Z -> list Z) (b : casm) (es : list emission) : res casm :=
  match es with [] => Ok b | e :: es => do b <- emit junk b e; emits junk b es end.

Lemma emit_ok junk b e : junkok junk -> awf b -> emission_ok e -> alen b + zlen (ebytes e) <= lim ->
  exists b', emit junk b e = Ok b' /\ awf b' /\ code b' = code b ++ ebytes e.
Proof.
  intros J W EO L. destruct e as [c a b'|v n|s]; cbn [emit ebytes emission_ok] in *.
  - assert (Z4 : zlen (op_bytes (mkOp c a b')) = 4) by (unfold zlen; rewrite (proj1 (C32_encode_bytes _)); reflexivity).
    rewrite Z4 in L. unfold asm_op.
    destruct (flex_needs_ok junk b 4 J W) as (b1 & E & W1 & LA & LS & CE); [lia|exact L|]. rewrite E. cbn [bind].
    destruct (append_ok b1 (op_bytes (mkOp c a b')) W1) as (mem & EB & W2 & C2); [rewrite Z4; lia|].
    change (le 4 (op_word c a b')) with (op_bytes (mkOp c a b')). rewrite EB. cbn [bind].
    rewrite Z4 in W2, C2. eexists. split; [reflexivity|]. split; [exact W2|]. rewrite C2, CE. reflexivity.
  - assert (ZN : zlen (le (Z.to_nat n) v) = n) by (unfold zlen; rewrite le_len; lia).
    rewrite ZN in L. unfold asm_put.
    destruct (flex_needs_ok junk b n J W) as (b1 & E & W1 & LA & LS & CE); [lia|exact L|]. rewrite E. cbn [bind].
    replace ((n =? 1) || (n =? 2) || (n =? 4) || (n =? 8)) with true by lia.
    destruct (append_ok b1 (le (Z.to_nat n) v) W1) as (mem & EB & W2 & C2); [rewrite ZN; lia|].
    rewrite EB. cbn [bind]. rewrite ZN in W2, C2. eexists. split; [reflexivity|]. split; [exact W2|]. rewrite C2, CE. reflexivity.
  - unfold asm_write. pose proof (zlen_nonneg s).
    destruct (flex_needs_ok junk b (zlen s) J W) as (b1 & E & W1 & LA & LS & CE); [lia|exact L|]. rewrite E. cbn [bind].
    destruct (append_ok b1 s W1) as (mem & EB & W2 & C2); [lia|].
    rewrite EB. cbn [bind]. eexists. split; [reflexivity|]. split; [exact W2|]. rewrite C2, CE. reflexivity.
Qed.

Lemma asm_new_wf junk : junkok junk -> awf (asm_new junk) /\ code (asm_new junk) = [].
Proof.
  intros J. split; [constructor; cbn [asm_new alen asiz amem]; [unfold ASM_UNIT; lia|reflexivity|apply J; unfold ASM_UNIT; lia]|].
  reflexivity.
Qed.
Lemma asm_clear_wf b : awf b -> awf (asm_clear b) /\ code (asm_clear b) = [].
Proof.
  intros [W1 W2 W3]. split; [|reflexivity]. constructor; cbn [asm_clear alen asiz amem]; [lia|exact W2|]. rewrite zlen_repeat. lia.
Qed.
Lemma emits_ok junk es : junkok junk -> Forall emission_ok es -> forall b, awf b ->
  alen b + zlen (concat (map ebytes es)) <= lim ->
  exists b', emits junk b es = Ok b' /\ awf b' /\ code b' = code b ++ concat (map ebytes es).
Proof.
  intros J. induction es as [|e es IH]; intros OK b W L.
  - exists b. rewrite app_nil_r. auto.
  - cbn [map concat] in *. rewrite zlen_app in L. pose proof (zlen_nonneg (concat (map ebytes es))).
    destruct (emit_ok junk b e J W (Forall_inv OK)) as (b1 & E & W1 & C1); [lia|].
    cbn [emits]. rewrite E. cbn [bind].
    destruct (IH (Forall_inv_tail OK) b1 W1) as (b2 & E2 & W2 & C2).
    { rewrite <- (zlen_code _ W1), C1, zlen_app, (zlen_code _ W). lia. }
    exists b2. split; [exact E2|]. split; [exact W2|]. rewrite C2, C1, <- app_assoc. reflexivity.
Qed.
(** any sequence of emissions (below 2 GB in all) runs without a write outside the
    buffer and leaves exactly the concatenation of what was emitted; the fill
    pointer never passes the allocated size *)
Theorem C49_emissions : forall junk es, junkok junk -> Forall emission_ok es ->
  zlen (concat (map ebytes es)) <= 2147483648 ->
  exists b, emits junk (asm_new junk) es = Ok b /\
    ztake (alen b) (amem b) = concat (map ebytes es) /\
    alen b = zlen (concat (map ebytes es)) /\
    0 <= alen b <= zlen (amem b) /\ zlen (amem b) = asiz b.
Proof.
  intros junk es J OK L. destruct (asm_new_wf junk J) as [W C].
  destruct (emits_ok junk es J OK _ W) as (b & E & W2 & C2); [exact L|].
  exists b. split; [exact E|]. rewrite C in C2. cbn [app] in C2. split; [exact C2|].
  pose proof (zlen_code _ W2) as ZC. rewrite C2 in ZC. split; [congruence|].
  destruct W2 as [X1 X2 X3]. rewrite X3. split; [exact X1|reflexivity].
Qed.
(** the same for a buffer that is reused after asm_clear *)
Theorem C49_reuse : forall junk es b0, junkok junk -> awf b0 -> Forall emission_ok es ->
  zlen (concat (map ebytes es)) <= 2147483648 ->
  exists b, emits junk (asm_clear b0) es = Ok b /\ ztake (alen b) (amem b) = concat (map ebytes es) /\ awf b.
Proof.
  intros junk es b0 J W0 OK L. destruct (asm_clear_wf b0 W0) as [W C].
  destruct (emits_ok junk es J OK _ W) as (b & E & W2 & C2); [exact L|].
  exists b. split; [exact E|]. split; [|exact W2]. rewrite C in C2. exact C2.
Qed.

(** reading instructions back *)
Lemma ztake_znth_eq l l' n i : ztake n l = l' -> 0 <= i < n -> znth l i = znth l' i.
Proof. intros <- H. symmetry. apply znth_ztake. exact H. Qed.
Lemma op_at_code b n : awf b -> 0 <= n -> 4 * n + 4 <= alen b ->
  PN_OP_AT b n = Ok (op_of_bytes (zsub (code b) (4 * n) 4)).
Proof.
  intros W N L. pose proof (zlen_code _ W) as ZC. destruct W as [W1 W2 W3]. unfold PN_OP_AT.
  rewrite !rd_ok by lia. cbn [bind]. unfold op_of_bytes. do 3 f_equal.
  apply znth_ext; [rewrite zlen_zsub by lia; reflexivity|]. intros i Hi.
  change (zlen _) with 4 in Hi. rewrite znth_zsub by lia. unfold code. rewrite znth_ztake by lia.
  assert (D : i = 0 \/ i = 1 \/ i = 2 \/ i = 3) by lia.
  destruct D as [-> | [-> | [-> | ->]]]; unfold znth at 1;
    match goal with |- context [Z.to_nat ?k] => let x := eval vm_compute in (Z.to_nat k) in change (Z.to_nat k) with x end;
    cbn [nth]; f_equal; lia.
Qed.
Lemma zsub_concat (os : list pnop) n o : nth_error os n = Some o ->
  zsub (concat (map op_bytes os)) (4 * Z.of_nat n) 4 = op_bytes o.
Proof.
  revert n. induction os as [|x os IH]; intros n H; [destruct n; discriminate|].
  cbn [map concat]. pose proof (proj1 (C32_encode_bytes x)) as L4.
  destruct n as [|n]; [injection H as ->|].
  - unfold zsub. change (Z.to_nat (4 * Z.of_nat 0)) with 0%nat. cbn [skipn].
    rewrite firstn_app, L4. change (Z.to_nat 4 - 4)%nat with 0%nat. cbn [firstn]. rewrite app_nil_r.
    apply firstn_all2. rewrite (proj1 (C32_encode_bytes o)). lia.
  - cbn in H. specialize (IH n H). unfold zsub in *. rewrite skipn_app, L4.
    replace (Z.to_nat (4 * Z.of_nat (S n)) - 4)%nat with (Z.to_nat (4 * Z.of_nat n)) by lia.
    rewrite skipn_all2 by lia. exact IH.
Qed.
Lemma zlen_concat_ops os : zlen (concat (map op_bytes os)) = 4 * zlen os.
Proof.
  induction os as [|o os IH]; [reflexivity|]. cbn [map concat]. rewrite zlen_app, zlen_cons, IH.
  unfold zlen at 1. rewrite (proj1 (C32_encode_bytes o)). lia.
Qed.
Definition op_ok (o : pnop) : Prop := code_ok (ocode o) /\ fits (oa o) /\ fits (ob o).
Definition emit_op (o : pnop) : emission := EOp (ocode o) (oa o) (ob o).
(** emitting instructions and decoding the buffer gives the same instructions *)
Theorem C49_instructions : forall junk os, junkok junk -> Forall op_ok os -> 4 * zlen os <= 2147483648 ->
  exists b, emits junk (asm_new junk) (map emit_op os) = Ok b /\ PN_OP_LEN b = zlen os /\
    forall n o, nth_error os n = Some o -> PN_OP_AT b (Z.of_nat n) = Ok o.
Proof.
  intros junk os J OK L. destruct (asm_new_wf junk J) as [W C].
  assert (EM : map ebytes (map emit_op os) = map op_bytes os).
  { rewrite map_map. apply map_ext. intros [c a b]. reflexivity. }
  destruct (emits_ok junk (map emit_op os) J) with (b := asm_new junk) as (b & E & W2 & C2).
  - apply Forall_forall. intros e He. apply in_map_iff in He. destruct He as (o & <- & _). exact I.
  - exact W.
  - rewrite EM, zlen_concat_ops. exact L.
  - exists b. split; [exact E|]. rewrite C, EM in C2. cbn [app] in C2.
    pose proof (zlen_code _ W2) as ZC. rewrite C2, zlen_concat_ops in ZC.
    split; [unfold PN_OP_LEN; lia|]. intros n o Hn.
    assert (Hl : (n < length os)%nat) by (apply nth_error_Some; congruence).
    rewrite op_at_code by (try exact W2; unfold zlen in *; lia). rewrite C2, (zsub_concat os n o Hn).
    assert (KO : op_ok o) by (rewrite Forall_forall in OK; apply OK; eapply nth_error_In; eauto).
    destruct o as [c a b']. destruct KO as (K1 & K2 & K3). cbn [ocode oa ob] in *.
    rewrite C32_encode_decode by assumption. reflexivity.
Qed.

(** patching a jump: only the patched field of the patched instruction changes *)
Lemma patch_ok b n w : awf b -> 0 <= n -> 4 * n + 4 <= alen b -> 
  exists mem, blit (amem b) (4 * n) (le 4 w) = Ok mem /\ awf (mkAsm (alen b) (asiz b) mem) /\
   zsub (code (mkAsm (alen b) (asiz b) mem)) (4 * n) 4 = le 4 w /\
   (forall k, 0 <= k -> 4 * k + 4 <= alen b -> k <> n ->
      zsub (code (mkAsm (alen b) (asiz b) mem)) (4 * k) 4 = zsub (code b) (4 * k) 4).
Proof.
  intros W N L. pose proof (zlen_code _ W) as ZC. destruct W as [W1 W2 W3].
  assert (Z4 : zlen (le 4 w) = 4) by (unfold zlen; rewrite le_len; reflexivity).
  destruct (blit_at (amem b) (4 * n) (le 4 w)) as (mem & E & ML & MT & MK); [lia|lia|].
  rewrite Z4 in MT, MK. exists mem. split; [exact E|].
  assert (WF : awf (mkAsm (alen b) (asiz b) mem)) by (constructor; cbn [alen asiz amem]; lia).
  split; [exact WF|]. pose proof (zlen_code _ WF) as ZC'. cbn [alen] in ZC'.
  assert (LT : zlen (ztake (4 * n) (amem b)) = 4 * n) by (apply zlen_ztake; lia).
  split.
  - apply znth_ext; [rewrite zlen_zsub by lia; lia|]. intros i Hi. rewrite zlen_zsub in Hi by lia.
    rewrite znth_zsub by lia. unfold code. cbn [alen amem]. rewrite znth_ztake by lia.
    rewrite (ztake_znth_eq mem _ (4 * n + 4) (4 * n + i) MT) by lia.
    rewrite znth_app2 by lia. f_equal. lia.
  - intros k K0 KL KN. apply znth_ext; [rewrite !zlen_zsub by lia; reflexivity|]. intros i Hi. rewrite zlen_zsub in Hi by lia.
    rewrite !znth_zsub by lia. unfold code. cbn [alen amem]. rewrite !znth_ztake by lia.
    destruct (Z_lt_le_dec (4 * k + i) (4 * n)) as [A|A].
    + rewrite (ztake_znth_eq mem _ (4 * n + 4) (4 * k + i) MT) by lia. rewrite znth_app1 by lia. apply znth_ztake. lia.
    + apply MK. lia.
Qed.
Lemma op_unword_code w : 0 <= ocode (op_unword w) < 256 /\ fits (oa (op_unword w)) /\ fits (ob (op_unword w)).
Proof. split; [cbn; lia|]. split; apply sx12_fits. Qed.
Theorem C49_patch_b : forall b n v o, awf b -> 0 <= n < PN_OP_LEN b -> PN_OP_AT b n = Ok o -> fits v ->
  exists b', op_set_b b n v = Ok b' /\ awf b' /\ PN_OP_LEN b' = PN_OP_LEN b /\
    PN_OP_AT b' n = Ok (mkOp (ocode o) (oa o) v) /\
    forall k, 0 <= k < PN_OP_LEN b -> k <> n -> PN_OP_AT b' k = PN_OP_AT b k.
Proof.
  intros b n v o W N E V. unfold PN_OP_LEN in N. assert (L : 4 * n + 4 <= alen b) by lia.
  unfold op_set_b. pose proof E as E'. rewrite op_at_code in E' by (try exact W; lia). injection E' as E'.
  rewrite E. cbn [bind].
  destruct (patch_ok b n (op_word (ocode o) (oa o) v) W (proj1 N) L) as (mem & EB & WF & P1 & P2).
  rewrite EB. cbn [bind]. eexists. split; [reflexivity|]. split; [exact WF|]. split; [reflexivity|].
  split.
  - rewrite op_at_code by (try exact WF; cbn [alen]; lia). rewrite P1.
    unfold op_of_bytes in E'. pose proof (op_unword_code (unle (zsub (code b) (4 * n) 4))) as (K1 & K2 & _).
    rewrite E' in K1, K2. f_equal. apply (C32_encode_decode (ocode o) (oa o) v); assumption.
  - intros k K KN. unfold PN_OP_LEN in K. rewrite !op_at_code by (try exact WF; try exact W; cbn [alen]; lia). rewrite P2 by lia. reflexivity.
Qed.
Theorem C49_patch_a : forall b n v o, awf b -> 0 <= n < PN_OP_LEN b -> PN_OP_AT b n = Ok o -> fits v ->
  exists b', op_set_a b n v = Ok b' /\ awf b' /\ PN_OP_LEN b' = PN_OP_LEN b /\
    PN_OP_AT b' n = Ok (mkOp (ocode o) v (ob o)) /\
    forall k, 0 <= k < PN_OP_LEN b -> k <> n -> PN_OP_AT b' k = PN_OP_AT b k.
Proof.
  intros b n v o W N E V. unfold PN_OP_LEN in N. assert (L : 4 * n + 4 <= alen b) by lia.
  unfold op_set_a. pose proof E as E'. rewrite op_at_code in E' by (try exact W; lia). injection E' as E'.
  rewrite E. cbn [bind].
  destruct (patch_ok b n (op_word (ocode o) v (ob o)) W (proj1 N) L) as (mem & EB & WF & P1 & P2).
  rewrite EB. cbn [bind]. eexists. split; [reflexivity|]. split; [exact WF|]. split; [reflexivity|].
  split.
  - rewrite op_at_code by (try exact WF; cbn [alen]; lia). rewrite P1.
    unfold op_of_bytes in E'. pose proof (op_unword_code (unle (zsub (code b) (4 * n) 4))) as (K1 & _ & K2).
    rewrite E' in K1, K2. f_equal. apply (C32_encode_decode (ocode o) v (ob o)); assumption.
  - intros k K KN. unfold PN_OP_LEN in K. rewrite !op_at_code by (try exact WF; try exact W; cbn [alen]; lia). rewrite P2 by lia. reflexivity.
Qed.
Definition junk0 (n : Z) : list Z := repeat 170 (Z.to_nat n).
Lemma junk0_ok : junkok junk0.
Proof. intros n H. unfold junk0. rewrite zlen_repeat. lia. Qed.
(** 300 instructions force two growths; the buffer satisfies the hypotheses above *)
Example C49_example : exists b, emits junk0 (asm_new junk0) (map emit_op (repeat (mkOp 18 3 (-1)) 300)) = Ok b /\
  PN_OP_LEN b = 300 /\ asiz b = 1520 /\ awf b.
Proof.
  eexists. split; [vm_compute; reflexivity|]. split; [vm_compute; reflexivity|]. split; [vm_compute; reflexivity|].
  constructor; cbn [alen asiz amem]; [lia|reflexivity|reflexivity].
Qed.

(** ** C48: literals *)
(** the constants that can be embedded: nil, true, false and the integers
    -1024 .. 1023 among the immediates *)
Lemma vfind_some l v i : vfind l v = Some i -> 0 <= i < zlen l /\ znth l i = v.
Proof.
  revert i. induction l as [|x l IH]; intros i H; [discriminate|]. cbn [vfind] in H. rewrite zlen_cons. pose proof (zlen_nonneg l).
  destruct (Z.eqb_spec x v) as [->|D]; [injection H as <-; split; [lia|reflexivity]|].
  destruct (vfind l v) as [j|]; [|discriminate]. injection H as <-. destruct (IH j eq_refl) as [A B].
  split; [lia|]. rewrite znth_consS by lia. replace (1 + j - 1) with j by lia. exact B.
Qed.
Lemma vput_ok vs v : let (vs', i) := vput vs v in
  0 <= i < zlen vs' /\ znth vs' i = v /\ i <= zlen vs /\ (exists t, vs' = vs ++ t).
Proof.
  unfold vput. destruct (vfind vs v) as [i|] eqn:F.
  - apply vfind_some in F. destruct F. repeat split; try lia. exists []. rewrite app_nil_r. reflexivity.
  - pose proof (zlen_nonneg vs). rewrite zlen_app. change (zlen [v]) with 1. repeat split; try lia.
    + rewrite znth_app2 by lia. replace (zlen vs - zlen vs) with 0 by lia. reflexivity.
    + eauto.
Qed.
(** the instruction emitted for a literal loads exactly the literal, for every
    literal, as long as the constant table has at most 2047 entries *)
Theorem C48_literal_exact : forall junk b values reg v, junkok junk -> awf b -> alen b <= 1000000000 ->
  0 <= v < two64 -> 0 <= reg < 256 -> zlen values <= 2047 ->
  exists b' values' o, emit_value junk b values reg v = Ok (b', values') /\ awf b' /\
    PN_OP_LEN b' = zlen (code b') / 4 /\
    code b' = code b ++ op_bytes o /\ oa o = reg /\
    op_of_bytes (op_bytes o) = mkOp (ocode o) reg (sx12 (ob o)) /\
    vm_load values' (op_of_bytes (op_bytes o)) = Ok v.
Proof.
  intros junk b values reg v J W LA V R NV.
  assert (EMIT : forall c x, alen b + 4 <= lim -> exists b', asm_op junk b c reg x = Ok b' /\ awf b' /\ code b' = code b ++ op_bytes (mkOp c reg x)).
  { intros c x L. apply (emit_ok junk b (EOp c reg x) J W I). cbn [ebytes]. unfold zlen. rewrite (proj1 (C32_encode_bytes _)). lia. }
  assert (L4 : alen b + 4 <= lim) by (unfold lim; lia).
  assert (FR : fits reg) by (unfold fits; lia).
  unfold emit_value. destruct (negb (PN_IS_PTR v) && (v =? u64 (sx12 v))) eqn:C.
  - destruct (EMIT OP_LOADPN v L4) as (b' & E & W' & CE). rewrite E. cbn [bind].
    exists b', values, (mkOp OP_LOADPN reg v). split; [reflexivity|]. split; [exact W'|]. split; [unfold PN_OP_LEN; rewrite zlen_code by exact W'; reflexivity|].
    split; [exact CE|]. split; [reflexivity|].
    assert (D : op_of_bytes (op_bytes (mkOp OP_LOADPN reg v)) = mkOp OP_LOADPN reg (sx12 v)).
    { unfold op_of_bytes, op_bytes. cbn [ocode oa ob]. rewrite unle_le by apply op_word_range. rewrite word_parts by (unfold OP_LOADPN; lia).
      f_equal. apply sx12_id, FR. }
    rewrite D. split; [reflexivity|]. unfold vm_load. cbn [ocode ob]. rewrite Z.eqb_refl. f_equal. lia.
  - pose proof (vput_ok values v) as VP. destruct (vput values v) as [values' i]. destruct VP as (I1 & I2 & I3 & _).
    destruct (EMIT OP_LOADK i L4) as (b' & E & W' & CE). rewrite E. cbn [bind].
    exists b', values', (mkOp OP_LOADK reg i). split; [reflexivity|]. split; [exact W'|]. split; [unfold PN_OP_LEN; rewrite zlen_code by exact W'; reflexivity|].
    split; [exact CE|]. split; [reflexivity|].
    assert (FI : fits i) by (unfold fits; lia).
    rewrite C32_encode_decode by (try assumption; unfold code_ok, OP_LOADK; lia).
    split; [cbn [ocode ob]; f_equal; symmetry; apply sx12_id, FI|].
    unfold vm_load. cbn [ocode ob]. change (OP_LOADK =? OP_LOADPN) with false. rewrite Z.eqb_refl. cbn iota.
    rewrite rd_ok by exact I1. f_equal. exact I2.
Qed.
(** which literals are embedded: exactly nil, the booleans and -1024 .. 1023
    (never a pointer) *)
Definition inline_lit (v : Z) : bool := negb (PN_IS_PTR v) && (v =? u64 (sx12 v)).
Theorem C48_inline_iff : forall n, - two62 <= n < two62 -> (inline_lit (PN_NUM n) = true <-> -1024 <= n <= 1023).
Proof.
  intros n H. unfold inline_lit.
  assert (P : PN_IS_PTR (PN_NUM n) = false).
  { unfold PN_IS_PTR. rewrite PN_NUM_is_int. reflexivity. }
  rewrite P. cbn [negb andb]. rewrite PN_NUM_eq. unfold sx12, u64, two62, two64 in *. lia.
Qed.
Theorem C48_inline_immediates : inline_lit PN_NIL = true /\ inline_lit PN_TRUE = true /\ inline_lit PN_FALSE = true.
Proof. repeat split. Qed.
(** a constant table with more entries than the field can address: the 2049-th
    constant (index 2048) is read back from a negative index *)
Theorem C48_large_table_refuted : exists junk b values reg v b' values' o,
  junkok junk /\ awf b /\ 0 <= v < two64 /\ 0 <= reg < 256 /\ zlen values = 2048 /\
  emit_value junk b values reg v = Ok (b', values') /\ PN_OP_AT b' (PN_OP_LEN b' - 1) = Ok o /\
  vm_load values' o <> Ok v.
Proof.
  exists junk0, (asm_new junk0), (map (fun i => 16 * (i + 1)) (zseq 0 2048)), 0, 99999.
  eexists. eexists. exists (mkOp OP_LOADK 0 (-2048)).
  split; [apply junk0_ok|]. split; [apply asm_new_wf, junk0_ok|]. split; [unfold two64; lia|]. split; [lia|].
  split; [vm_compute; reflexivity|]. split; [vm_compute; reflexivity|]. split; [vm_compute; reflexivity|].
  vm_compute. discriminate.
Qed.
(** C32, second half: the assembler does emit operands that do not fit *)
Theorem C32_out_of_range_refuted : exists junk b b' a, junkok junk /\ awf b /\ 0 <= a < 2147483648 /\
  asm_op junk b 38 a 0 = Ok b' /\ PN_OP_AT b' (PN_OP_LEN b' - 1) <> Ok (mkOp 38 a 0).
Proof.
  exists junk0, (asm_new junk0). eexists. exists 2048.
  split; [apply junk0_ok|]. split; [apply asm_new_wf, junk0_ok|]. split; [lia|]. split; [vm_compute; reflexivity|].
  vm_compute. discriminate.
Qed.
