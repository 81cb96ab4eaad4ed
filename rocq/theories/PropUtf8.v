(** Properties C27 (length), C28 (indexing and slicing), C29 (escapes), C53 (ord). *)
From Coq Require Import ZifyBool.
From Verif Require Import Base Arr WordModel WordProofs Utf8Spec Utf8Model Utf8Proofs.
Ltac Zify.zify_post_hook ::= Z.div_mod_to_equations.

(** the memory of a string object: its characters at address [a], a NUL, and the
    rest [r] of the block, which ends at a multiple of 8 (potion.h 705) *)
Definition block (a : Z) (s r : list Z) : Prop :=
  Forall (fun b => 0 <= b <= 255) r /\ (a + zlen (s ++ 0 :: r)) mod 8 = 0.

(** ** C27 *)
(** for every NUL-terminated byte string and every alignment, the counter
    returns the number of bytes that are not continuation bytes, reading no
    byte outside the block *)
Theorem C27_counter_counts_non_continuation_bytes :
  forall a s r, Forall (fun b => 1 <= b <= 255) s -> block a s r ->
  cp_strlen_utf8 a (s ++ 0 :: r) = Ok (zlen (filter (fun b => negb (iscont b)) s)).
Proof.
  intros a s r F [R A]. rewrite strlen_ok; [|exact F|exact R|exact A]. f_equal. clear. unfold ncont.
  induction s as [|b s IH]; [reflexivity|]. cbn [filter]. destruct (iscont b); cbn [negb]; rewrite !zlen_cons; lia.
Qed.
(** length of a UTF-8 text is its number of code points *)
Theorem C27_length_is_the_number_of_code_points :
  forall a cps r, text cps -> block a (utf8 cps) r ->
  str_length a (utf8 cps ++ 0 :: r) = Ok (PN_NUM (zlen cps)).
Proof.
  intros a cps r T [R A]. unfold str_length. rewrite strlen_ok; [|apply utf8_chars, T|exact R|exact A].
  cbn [bind]. rewrite (utf8_ncont cps T). reflexivity.
Qed.
Example C27_example : let cps := [20052; 32435; 65; 128512; 233; 26862; 33713; 29305] in
  text cps /\ block 12 (utf8 cps) (repeat 7 5) /\ str_length 12 (utf8 cps ++ 0 :: repeat 7 5) = Ok (PN_NUM 8).
Proof.
  split; [|split; [split|]].
  - repeat constructor; unfold scalar; lia.
  - repeat constructor; lia.
  - reflexivity.
  - vm_compute. reflexivity.
Qed.
(** a text containing U+0000 (writable as "\u0000") is counted only up to it *)
Theorem finding_length_stops_at_nul :
  exists a cps r, Forall scalar cps /\ block a (utf8 cps) r /\
    str_length a (utf8 cps ++ 0 :: r) = Ok (PN_NUM 1) /\ zlen cps = 3.
Proof.
  exists 0, [97; 0; 98], [0; 0; 0; 0]. split; [repeat constructor; unfold scalar; lia|].
  split; [split; [repeat constructor; lia|reflexivity]|]. split; [vm_compute; reflexivity|reflexivity].
Qed.

(** ** C28 *)
Lemma s32_id x : - 2147483648 <= x < 2147483648 -> s32 x = x.
Proof. unfold s32, two32. lia. Qed.
Lemma PN_INT_NUM' i : - two62 <= i < two62 -> PN_INT (PN_NUM i) = i.
Proof. intros H. apply PN_INT_NUM. apply repb_spec. exact H. Qed.
Lemma PN_NUM_not_nil i : PN_NUM i <> 0.
Proof. rewrite PN_NUM_eq. unfold two64. lia. Qed.
(** negative positions count from the end; positions are clamped to the text *)
Definition norm (n i : Z) : Z := if i <? 0 then Z.max 0 (n + i) else Z.min i n.
Definition small (i : Z) : Prop := - 2147483648 <= i < 2147483648.
Lemma slice_index_ok i n d : small i -> 0 <= n < 2147483648 -> PN_INT (str_slice_index (PN_NUM i) n d) = norm n i.
Proof.
  intros [H1 H2] N. unfold str_slice_index. unfold PN_IS_NIL, PN_NIL.
  rewrite (proj2 (Z.eqb_neq _ _) (PN_NUM_not_nil i)). rewrite (PN_INT_NUM' i) by (unfold two62; lia).
  rewrite (s32_id i) by lia. unfold norm. destruct (Z.ltb_spec i 0).
  - rewrite s32_id by lia. rewrite PN_INT_NUM' by (unfold two62; destruct (Z.ltb_spec (i + n) 0); lia).
    destruct (Z.ltb_spec (i + n) 0); lia.
  - destruct (Z.gtb_spec i n).
    + rewrite s32_id by lia. rewrite PN_INT_NUM' by (unfold two62; lia). lia.
    + rewrite PN_INT_NUM' by (unfold two62; lia). lia.
Qed.
Lemma norm_range n i : 0 <= n -> 0 <= norm n i <= n.
Proof. unfold norm. destruct (i <? 0) eqn:E; lia. Qed.

(** at(i) is the i-th code point (from the end when i is negative) *)
Theorem C28_at_is_the_code_point :
  forall a cps r i, text cps -> block a (utf8 cps) r -> zlen (utf8 cps) < 2147483648 ->
  - zlen cps <= i < zlen cps ->
  str_at a (utf8 cps ++ 0 :: r) (PN_NUM i)
    = Ok (encode (nth (Z.to_nat (if i <? 0 then zlen cps + i else i)) cps 0)).
Proof.
  intros a cps r i T [R A] L Hi. pose proof (zlen_utf8_ge cps T) as LG.
  set (k := if i <? 0 then zlen cps + i else i).
  assert (K : 0 <= k < zlen cps) by (unfold k; destruct (Z.ltb_spec i 0); lia).
  assert (LK : (Z.to_nat k < length cps)%nat) by (unfold zlen in K; lia).
  unfold str_at. rewrite PN_INT_NUM' by (unfold two62; lia).
  assert (ST : (if i <? 0 then do len <- cp_strlen_utf8 a (utf8 cps ++ 0 :: r); Ok (PN_INT (str_slice_index (PN_NUM i) len 0)) else Ok i) = Ok k).
  { unfold k. destruct (Z.ltb_spec i 0); [|reflexivity].
    rewrite strlen_ok; [|apply utf8_chars, T|exact R|exact A]. cbn [bind]. rewrite (utf8_ncont cps T).
    rewrite slice_index_ok by (unfold small; lia). unfold norm. replace (i <? 0) with true by lia. f_equal. lia. }
  rewrite ST. cbn [bind].
  replace (u64 k) with k by (unfold u64, two64; lia). rewrite (offset_ok cps r T) by (unfold two64; lia). cbn [bind].
  rewrite Z.add_0_l. rewrite (next_ok cps r (Z.to_nat k) T LK). cbn [bind].
  assert (E1 : utf8 cps = utf8 (firstn (Z.to_nat k) cps) ++ encode (nth (Z.to_nat k) cps 0) ++ utf8 (skipn (S (Z.to_nat k)) cps)).
  { rewrite (nth_split3 cps _ LK) at 1. rewrite utf8_app, utf8_cons. reflexivity. }
  assert (E2 : utf8 (firstn (S (Z.to_nat k)) cps) = utf8 (firstn (Z.to_nat k) cps) ++ encode (nth (Z.to_nat k) cps 0)).
  { rewrite (nth_split3 cps _ LK) at 1. replace (S (Z.to_nat k)) with (length (firstn (Z.to_nat k) cps) + 1)%nat by (rewrite firstn_length; lia).
    rewrite firstn_app_2. cbn [firstn]. rewrite utf8_app, utf8_cons. cbn. rewrite app_nil_r. reflexivity. }
  rewrite E2, zlen_app. replace (u64 _) with (zlen (encode (nth (Z.to_nat k) cps 0))).
  - unfold substr. rewrite E1. rewrite <- !app_assoc. rewrite !zlen_app.
    pose proof (zlen_nonneg (utf8 (firstn (Z.to_nat k) cps))).
    pose proof (zlen_nonneg (utf8 (skipn (S (Z.to_nat k)) cps))). pose proof (zlen_nonneg (0 :: r)).
    destruct (_ && _) eqn:B; [|lia]. rewrite zsub_mid by reflexivity. reflexivity.
  - pose proof (zlen_nonneg (encode (nth (Z.to_nat k) cps 0))).
    assert (zlen (encode (nth (Z.to_nat k) cps 0)) <= 4).
    { unfold encode. repeat destruct (_ <? _); unfold zlen; cbn; lia. }
    unfold u64, two64. lia.
Qed.

Lemma firstn_le {A} (l : list A) i j : (i <= j)%nat -> firstn j l = firstn i l ++ firstn (j - i) (skipn i l).
Proof.
  revert i j. induction l as [|x l IH]; intros i j H; [rewrite skipn_nil, !firstn_nil; reflexivity|].
  destruct i; [cbn; rewrite Nat.sub_0_r; reflexivity|]. destruct j; [lia|]. cbn. f_equal. apply IH. lia.
Qed.
Lemma slice_core cps r i j : text cps -> zlen (utf8 cps) < 2147483648 -> 0 <= i <= j -> j <= zlen cps ->
  substr (utf8 cps ++ 0 :: r) (zlen (utf8 (firstn (Z.to_nat i) cps)))
    (u64 (zlen (utf8 (firstn (Z.to_nat j) cps)) - zlen (utf8 (firstn (Z.to_nat i) cps))))
  = Ok (utf8 (firstn (Z.to_nat (j - i)) (skipn (Z.to_nat i) cps))).
Proof.
  intros T L I J. set (m := firstn (Z.to_nat (j - i)) (skipn (Z.to_nat i) cps)).
  assert (E : firstn (Z.to_nat j) cps = firstn (Z.to_nat i) cps ++ m).
  { unfold m. rewrite (firstn_le cps (Z.to_nat i) (Z.to_nat j)) by lia. f_equal. f_equal. lia. }
  assert (EC : cps = firstn (Z.to_nat i) cps ++ m ++ skipn (Z.to_nat j) cps).
  { rewrite app_assoc, <- E. symmetry. apply firstn_skipn. }
  set (p := firstn (Z.to_nat i) cps) in *. rewrite E, utf8_app, zlen_app.
  assert (EU : utf8 cps = utf8 p ++ utf8 m ++ utf8 (skipn (Z.to_nat j) cps)).
  { rewrite EC at 1. rewrite !utf8_app. reflexivity. }
  pose proof (zlen_nonneg (utf8 p)). pose proof (zlen_nonneg (utf8 m)). pose proof (zlen_nonneg (utf8 (skipn (Z.to_nat j) cps))).
  assert (zlen (utf8 cps) = zlen (utf8 p) + zlen (utf8 m) + zlen (utf8 (skipn (Z.to_nat j) cps))) by (rewrite EU, !zlen_app; lia).
  replace (u64 _) with (zlen (utf8 m)) by (unfold u64, two64; lia).
  unfold substr. rewrite zlen_app. pose proof (zlen_nonneg (0 :: r)).
  destruct (_ && _) eqn:B; [|lia]. rewrite EU, <- !app_assoc. rewrite zsub_mid by reflexivity. reflexivity.
Qed.
(** raw comparison of tagged numbers *)
Lemma PN_NUM_ltb i j : small i -> small j -> (PN_NUM j <? PN_NUM i) =
  (if (i <? 0) then (0 <=? j) || (j <? i) else (0 <=? j) && (j <? i)).
Proof. unfold small. intros. rewrite !PN_NUM_eq. unfold two64. destruct (Z.ltb_spec i 0); lia. Qed.

(** slice(i, j) is the sub-text between the normalized positions, whenever the
    two positions have the same sign and are in order, or the end is counted
    from the end of the text and does not precede the start *)
Theorem C28_slice_is_the_sub_text :
  forall a cps r i j, text cps -> block a (utf8 cps) r -> zlen (utf8 cps) < 2147483648 -> small i -> small j ->
  (0 <= i <= j \/ i <= j < 0 \/ (0 <= i /\ j < 0 /\ norm (zlen cps) i <= norm (zlen cps) j)) ->
  str_slice a (utf8 cps ++ 0 :: r) (PN_NUM i) (PN_NUM j)
    = Ok (Some (utf8 (firstn (Z.to_nat (norm (zlen cps) j - norm (zlen cps) i))
                             (skipn (Z.to_nat (norm (zlen cps) i)) cps)))).
Proof.
  intros a cps r i j T [R A] L SI SJ C. pose proof (zlen_utf8_ge cps T) as LG. pose proof (zlen_nonneg cps) as N0.
  unfold str_slice. rewrite strlen_ok; [|apply utf8_chars, T|exact R|exact A]. cbn [bind]. rewrite (utf8_ncont cps T).
  rewrite (proj2 (Z.eqb_neq _ _) (PN_NUM_not_nil i)), (proj2 (Z.eqb_neq _ _) (PN_NUM_not_nil j)).
  cbn zeta. rewrite PN_NUM_ltb by assumption.
  destruct (if i <? 0 then _ else _) eqn:B.
  { exfalso. destruct (Z.ltb_spec i 0); lia. }
  rewrite !slice_index_ok by (assumption || lia).
  pose proof (norm_range (zlen cps) i N0). pose proof (norm_range (zlen cps) j N0).
  assert (ORD : norm (zlen cps) i <= norm (zlen cps) j).
  { destruct C as [C|[C|C]]; [| |apply C]; unfold norm; destruct (Z.ltb_spec i 0), (Z.ltb_spec j 0); lia. }
  rewrite !(offset_ok cps r T) by (unfold u64, two64 in *; lia). cbn [bind]. rewrite !Z.add_0_l.
  replace (u64 (norm (zlen cps) i)) with (norm (zlen cps) i) by (unfold u64, two64; lia).
  replace (u64 (norm (zlen cps) j)) with (norm (zlen cps) j) by (unfold u64, two64; lia).
  rewrite slice_core by (assumption || lia). reflexivity.
Qed.
(** slice(i) with no end, i >= 0: the rest of the text *)
Theorem C28_slice_without_end :
  forall a cps r i, text cps -> block a (utf8 cps) r -> zlen (utf8 cps) < 2147483648 ->
  0 <= i <= zlen cps ->
  str_slice a (utf8 cps ++ 0 :: r) (PN_NUM i) PN_NIL = Ok (Some (utf8 (skipn (Z.to_nat i) cps))).
Proof.
  intros a cps r i T B L SI. pose proof (zlen_utf8_ge cps T) as LG. pose proof (zlen_nonneg cps) as N0.
  assert (E : str_slice a (utf8 cps ++ 0 :: r) (PN_NUM i) PN_NIL = str_slice a (utf8 cps ++ 0 :: r) (PN_NUM i) (PN_NUM (zlen cps))).
  { destruct B as [R A]. unfold str_slice. rewrite strlen_ok; [|apply utf8_chars, T|exact R|exact A]. cbn [bind]. rewrite (utf8_ncont cps T).
    rewrite (proj2 (Z.eqb_neq _ _) (PN_NUM_not_nil (zlen cps))). reflexivity. }
  rewrite E. rewrite C28_slice_is_the_sub_text; try assumption; unfold small; try lia.
  unfold norm. destruct (Z.ltb_spec (zlen cps) 0); [lia|]. destruct (Z.ltb_spec i 0); [lia|].
  do 3 f_equal. rewrite Z.min_id, Z.min_l by lia. rewrite <- (firstn_all (skipn (Z.to_nat i) cps)) at 2. f_equal.
  rewrite skipn_length. unfold zlen. lia.
Qed.
Example C28_example : let cps := [20052; 32435; 26862; 33713; 29305] in
  str_slice 12 (utf8 cps ++ 0 :: [1;2;3;4]) (PN_NUM 1) (PN_NUM (-1)) = Ok (Some (utf8 [32435; 26862; 33713])) /\
  str_at 12 (utf8 cps ++ 0 :: [1;2;3;4]) (PN_NUM (-5)) = Ok (utf8 [20052]) /\
  text cps /\ block 12 (utf8 cps) [1;2;3;4].
Proof.
  split; [vm_compute; reflexivity|]. split; [vm_compute; reflexivity|]. split.
  - repeat constructor; unfold scalar; lia.
  - split; [repeat constructor; lia|reflexivity].
Qed.
(** Findings: an end before the start gives a string of negative length (a copy
    of almost 2^64 bytes), ... *)
Theorem C28_slice_end_before_start_refuted :
  exists a cps r i j, text cps /\ block a (utf8 cps) r /\ - zlen cps <= i < zlen cps /\ - zlen cps <= j < zlen cps /\
    str_slice a (utf8 cps ++ 0 :: r) (PN_NUM i) (PN_NUM j) = UB.
Proof.
  exists 4, [97; 98; 99], [], (-1), (-2). split; [repeat constructor; unfold scalar; lia|].
  split; [split; [constructor|reflexivity]|]. unfold zlen. cbn [length]. split; [lia|]. split; [lia|]. vm_compute. reflexivity.
Qed.
(** ... a negative start with a non-negative end is not the text in between
    ("abcdef" slice(-5, 4) should be "bcd") ... *)
Theorem C28_slice_mixed_signs_refuted :
  str_slice 1 ([97; 98; 99; 100; 101; 102] ++ 0 :: []) (PN_NUM (-5)) (PN_NUM 4) <> Ok (Some [98; 99; 100]).
Proof. vm_compute. discriminate. Qed.
(** ... a negative start without an end loses the tail
    ("abc" slice(-2) gives "b" instead of "bc") ... *)
Theorem C28_slice_negative_start_refuted :
  str_slice 4 ([97; 98; 99] ++ 0 :: []) (PN_NUM (-2)) PN_NIL = Ok (Some [98]).
Proof. vm_compute. reflexivity. Qed.
(** ... and at(length) reads the byte after the terminating NUL, which may lie
    outside the block. *)
Theorem C28_at_end_reads_past_the_string_refuted :
  forall a cps, text cps -> (a + zlen (utf8 cps) + 1) mod 8 = 0 -> zlen (utf8 cps) < 2147483648 ->
  block a (utf8 cps) [] /\ str_at a (utf8 cps ++ [0]) (PN_NUM (zlen cps)) = UB.
Proof.
  intros a cps T A L. split.
  - split; [constructor|]. rewrite zlen_app. change (zlen [0]) with 1. rewrite <- A. f_equal. lia.
  - pose proof (zlen_utf8_ge cps T) as LG. pose proof (zlen_nonneg cps) as N0. unfold str_at.
    rewrite PN_INT_NUM' by (unfold two62; lia). destruct (Z.ltb_spec (zlen cps) 0); [lia|]. cbn [bind].
    change [0] with (0 :: @nil Z). rewrite (offset_ok cps [] T) by (unfold u64, two64; lia). cbn [bind]. rewrite Z.add_0_l.
    replace (u64 (zlen cps)) with (zlen cps) by (unfold u64, two64; lia).
    replace (Z.to_nat (zlen cps)) with (length cps) by (unfold zlen; lia). rewrite firstn_all.
    unfold utf8char_nextchar. rewrite skipn_all2; [reflexivity|]. rewrite app_length. cbn [length]. unfold zlen. lia.
Qed.

(** ** C29 *)
Lemma lor_add x p k : 0 <= x < 2 ^ k -> 0 <= k -> p mod 2 ^ k = 0 -> Z.lor x p = x + p.
Proof.
  intros H K M. symmetry. rewrite <- Z.lxor_lor; [apply Z.add_nocarry_lxor|];
  (apply Z.bits_inj'; intros n Hn; rewrite Z.land_spec, Z.bits_0;
   destruct (Z_lt_le_dec n k);
   [rewrite <- (Z.mod_pow2_bits_low p k n) by lia; rewrite M, Z.bits_0; apply andb_false_r|
    replace (Z.testbit x n) with false; [reflexivity|]; symmetry;
    destruct (Z.eq_dec x 0) as [->|]; [apply Z.bits_0|];
    apply Z.bits_above_log2; [lia|]; apply Z.log2_lt_pow2; [lia|];
    assert (2 ^ k <= 2 ^ n) by (apply Z.pow_le_mono_r; lia); lia]).
Qed.
Lemma land63 x : Z.land x 63 = x mod 64.
Proof. change 63 with (Z.ones 6). rewrite Z.land_ones by lia. reflexivity. Qed.
Lemma lor_cont x : Z.lor (Z.land x 63) 128 mod 256 = 128 + x mod 64.
Proof. rewrite land63, (lor_add _ 128 6) by (change (2 ^ 6) with 64; lia). lia. Qed.
Ltac shr := rewrite !Z.shiftr_div_pow2 by lia; change (2 ^ 6) with 64; change (2 ^ 12) with 4096; change (2 ^ 18) with 262144.

(** \U{c} writes the UTF-8 encoding of c, except for the code points listed *)
Theorem C29_escape_U_encodes :
  forall c, scalar c -> ~ In c [192; 193; 2047; 65535; 1114111] -> escU c = Some (encode c).
Proof.
  intros c [R S] N. cbn in N. unfold escU, encode.
  destruct (Z.ltb_spec c 128); [f_equal; f_equal; lia|].
  destruct (Z.ltb_spec c 2047).
  - destruct (Z.ltb_spec c 2048); [|lia]. destruct (Z.eqb_spec c 192); [lia|]. destruct (Z.eqb_spec c 193); [lia|]. cbn [orb].
    rewrite lor_cont. shr. rewrite (lor_add _ 192 5) by (change (2 ^ 5) with 32; lia).
    f_equal. f_equal. lia.
  - destruct (Z.ltb_spec c 2048); [lia|]. destruct (Z.ltb_spec c 65535).
    + destruct (Z.ltb_spec c 65536); [|lia]. destruct ((c >=? 55296) && (c <? 57343)) eqn:E; [lia|].
      rewrite !lor_cont. shr. rewrite (lor_add _ 224 4) by (change (2 ^ 4) with 16; lia).
      f_equal. f_equal. lia.
    + destruct (Z.ltb_spec c 65536); [lia|]. destruct (Z.ltb_spec c 1114111); [|lia].
      rewrite !lor_cont. shr. rewrite (lor_add _ 240 3) by (change (2 ^ 3) with 8; lia).
      f_equal. f_equal. lia.
Qed.
(** \uXXXX likewise *)
Theorem C29_escape_u_encodes :
  forall c, scalar c -> c < 65536 -> ~ In c [192; 193; 2047] -> escu c = Some (encode c).
Proof.
  intros c [R S] L N. cbn in N. unfold escu, encode.
  destruct (Z.ltb_spec c 128); [f_equal; f_equal; lia|].
  destruct (Z.ltb_spec c 2047).
  - destruct (Z.ltb_spec c 2048); [|lia]. destruct (Z.eqb_spec c 192); [lia|]. destruct (Z.eqb_spec c 193); [lia|]. cbn [orb].
    rewrite lor_cont. shr. rewrite (lor_add _ 192 5) by (change (2 ^ 5) with 32; lia).
    f_equal. f_equal. lia.
  - destruct (Z.ltb_spec c 2048); [lia|]. destruct (Z.ltb_spec c 65536); [|lia].
    destruct ((c >=? 55296) && (c <? 57343)) eqn:E; [lia|].
    rewrite !lor_cont. shr. rewrite (lor_add _ 224 4) by (change (2 ^ 4) with 16; lia).
    f_equal. f_equal. lia.
Qed.
(** surrogates but U+DFFF, and everything above U+10FFFF, are rejected *)
Theorem C29_escape_rejects_non_scalars :
  (forall c, 55296 <= c < 57343 -> escu c = None /\ escU c = None) /\
  (forall c, 1114111 < c -> escU c = None).
Proof.
  split.
  - intros c H. unfold escu, escU. replace (c <? 128) with false by lia. replace (c <? 2047) with false by lia.
    replace (c <? 65535) with true by lia. replace ((c >=? 55296) && (c <? 57343)) with true by lia. auto.
  - intros c H. unfold escU. replace (c <? 128) with false by lia. replace (c <? 2047) with false by lia.
    replace (c <? 65535) with false by lia. replace (c <? 1114111) with false by lia. reflexivity.
Qed.
Example C29_example : escU 128512 = Some [240; 159; 152; 128] /\ escu 8364 = Some [226; 130; 172] /\ scalar 128512.
Proof. split; [vm_compute; reflexivity|]. split; [vm_compute; reflexivity|]. unfold scalar. lia. Qed.
(** Findings: exactly those code points are wrong.  U+00C0 and U+00C1 (À, Á) and
    U+10FFFF are rejected, U+07FF and U+FFFF are encoded with one byte too many
    (an overlong, ill-formed sequence), and the surrogate U+DFFF is accepted. *)
Theorem C29_escape_boundaries_refuted :
  escU 192 = None /\ escU 193 = None /\ escu 192 = None /\ escu 193 = None /\ escU 1114111 = None /\
  escU 2047 = Some [224; 159; 191] /\ escu 2047 = Some [224; 159; 191] /\ encode 2047 = [223; 191] /\
  escU 65535 = Some [240; 143; 191; 191] /\ encode 65535 = [239; 191; 191] /\
  escu 57343 = Some [237; 191; 191] /\ escU 57343 = Some [237; 191; 191].
Proof. repeat split. Qed.

(** ** C53: ord *)
Lemma strip_ok b : 128 <= b <= 244 -> b <> 192 -> b <> 193 ->
  strip b = if iscont b then b - 128 else if b <? 224 then b - 192 else if b <? 240 then b - 224 else b - 240.
Proof.
  intros H N1 N2.
  assert (X : forall b, 0 <= b <= 255 -> ((b <? 128) || (b >? 244) || (b =? 192) || (b =? 193) ||
     (strip b =? if iscont b then b - 128 else if b <? 224 then b - 192 else if b <? 240 then b - 224 else b - 240)) = true).
  { apply byte_all. vm_compute. reflexivity. }
  specialize (X b ltac:(lia)). lia.
Qed.
Lemma decode_ok c r : scalar c -> c <> 0 -> decode_loop (encode c ++ 0 :: r) 0 = Ok c.
Proof.
  intros [R S] N. unfold encode.
  assert (SH : forall x y, 0 <= x < 2 ^ 20 -> 0 <= y < 64 -> Z.lor (u64 (Z.shiftl x 6)) y = 64 * x + y).
  { intros x y Hx Hy. rewrite Z.shiftl_mul_pow2 by lia. change (2 ^ 6) with 64. change (2 ^ 20) with 1048576 in Hx.
    replace (u64 (x * 64)) with (64 * x) by (unfold u64, two64; lia).
    rewrite Z.lor_comm, (lor_add y (64 * x) 6) by (change (2 ^ 6) with 64; lia). lia. }
  change (2 ^ 20) with 1048576 in SH.
  assert (C0 : forall b, Z.lor (u64 (Z.shiftl 0 6)) b = b) by (intros b; reflexivity).
  destruct (Z.ltb_spec c 128).
  - cbn [app decode_loop]. destruct (Z.eqb_spec c 0); [lia|]. cbn [Z.eqb]. unfold strip. replace (128 <=? c) with false by lia.
    rewrite C0. reflexivity.
  - destruct (Z.ltb_spec c 2048); [|destruct (Z.ltb_spec c 65536)]; cbn [app decode_loop];
      repeat match goal with |- context [if ?x =? 0 then _ else _] => destruct (Z.eqb_spec x 0); [lia|] end;
      rewrite C0; rewrite !strip_ok by lia; unfold iscont;
      repeat match goal with |- context [if ?b then _ else _] =>
        (replace b with true by lia) || (replace b with false by lia) end;
      repeat match goal with |- context [Z.lor (u64 (Z.shiftl ?x 6)) ?y] => rewrite (SH x y) by lia end; f_equal; lia.
Qed.
(** ord(k) of the last character, for every text and for every position *)
Theorem C53_ord_of_the_last_character :
  forall a cps r, text cps -> cps <> [] -> block a (utf8 cps) r -> zlen (utf8 cps) < 2147483648 ->
  str_ord a (utf8 cps ++ 0 :: r) (zlen (utf8 cps)) (PN_NUM (zlen cps - 1)) = Ok (PN_NUM (last cps 0)).
Proof.
  intros a cps r T NE [R A] L. pose proof (zlen_utf8_ge cps T) as LG.
  destruct (exists_last NE) as (pre & c & ->). rewrite last_last.
  assert (TC : scalar c /\ c <> 0). { apply Forall_app in T. destruct T as [_ T]. apply (Forall_inv T). }
  assert (LP : zlen (pre ++ [c]) - 1 = zlen pre) by (rewrite zlen_app; unfold zlen; cbn; lia).
  assert (SLOW : (do o <- utf8char_offset (utf8 (pre ++ [c]) ++ 0 :: r) (u64 (PN_INT (PN_NUM (zlen pre)))) 0;
     do c <- utf8char_decode (utf8 (pre ++ [c]) ++ 0 :: r) o; Ok (PN_NUM c)) = Ok (PN_NUM c)).
  { pose proof (zlen_nonneg pre). rewrite PN_INT_NUM' by (unfold two62; lia).
    rewrite (offset_ok _ r T) by (unfold u64, two64; lia). cbn [bind].
    replace (u64 (zlen pre)) with (zlen pre) by (unfold u64, two64; lia).
    replace (Z.to_nat (zlen pre)) with (length pre + 0)%nat by (unfold zlen; lia). rewrite firstn_app_2. cbn [firstn].
    rewrite app_nil_r, Z.add_0_l. unfold utf8char_decode. rewrite utf8_app, <- app_assoc. rewrite skipn_zlen by reflexivity.
    cbn [utf8 flat_map]. rewrite app_nil_r. rewrite decode_ok by apply TC. reflexivity. }
  rewrite LP. unfold str_ord. destruct (zlen (utf8 (pre ++ [c])) >? 255); [exact SLOW|].
  rewrite strlen_ok; [|apply utf8_chars, T|exact R|exact A]. cbn [bind]. rewrite (utf8_ncont _ T).
  destruct (_ && _) eqn:B; [|exact SLOW].
  (* all characters are single bytes *)
  assert (E : zlen (utf8 (pre ++ [c])) = zlen (pre ++ [c])) by lia.
  rewrite utf8_app, !zlen_app in E. cbn [utf8 flat_map] in E. rewrite app_nil_r in E. change (zlen [c]) with 1 in E.
  assert (TP : text pre) by (apply Forall_app in T; apply T). pose proof (zlen_utf8_ge pre TP).
  assert (c < 128).
  { unfold encode in E. destruct (Z.ltb_spec c 128); [assumption|]. exfalso.
    revert E. repeat destruct (_ <? _); unfold zlen at 2; cbn [length]; lia. }
  assert (E1 : encode c = [c]) by (unfold encode; replace (c <? 128) with true by lia; reflexivity).
  rewrite E1 in E. change (zlen [c]) with 1 in E.
  pose proof (zlen_nonneg pre). rewrite PN_INT_NUM' by (unfold two62; lia).
  rewrite utf8_app. cbn [utf8 flat_map]. rewrite app_nil_r, E1.
  rewrite <- app_assoc. rewrite rd_ok by (rewrite !zlen_app; change (zlen [c]) with 1; pose proof (zlen_nonneg (0 :: r)); lia).
  cbn [bind]. unfold znth. rewrite app_nth2 by (unfold zlen in *; lia).
  replace (Z.to_nat (zlen pre) - length (utf8 pre))%nat with O by (unfold zlen in *; lia). cbn [app nth].
  unfold schar. replace (c <? 128) with true by lia. reflexivity.
Qed.
(** in particular, ord of a one-character string is its code point *)
Theorem C53_ord_of_one_character :
  forall a c r, scalar c -> c <> 0 -> block a (encode c) r ->
  str_ord a (encode c ++ 0 :: r) (zlen (encode c)) PN_NIL = Ok (PN_NUM c).
Proof.
  intros a c r S N B.
  assert (E : utf8 [c] = encode c) by (cbn; apply app_nil_r).
  assert (LE : zlen (encode c) < 2147483648) by (unfold encode; repeat destruct (_ <? _); unfold zlen; cbn; lia).
  pose proof (C53_ord_of_the_last_character a [c] r) as H. rewrite E in H. change (zlen [c] - 1) with 0 in H. cbn [last] in H.
  rewrite <- H; [|repeat constructor; (apply S || exact N)|discriminate|exact B|exact LE].
  unfold str_ord. change (PN_INT PN_NIL) with 0. change (PN_INT (PN_NUM 0)) with 0. reflexivity.
Qed.
(** ord(i) of an ASCII text of at most 255 characters is its i-th character *)
Theorem C53_ord_of_short_ascii :
  forall a cps r i, Forall (fun c => 1 <= c < 128) cps -> zlen cps <= 255 -> block a cps r -> 0 <= i < zlen cps ->
  str_ord a (cps ++ 0 :: r) (zlen cps) (PN_NUM i) = Ok (PN_NUM (nth (Z.to_nat i) cps 0)).
Proof.
  intros a cps r i F L [R A] Hi. unfold str_ord. replace (zlen cps >? 255) with false by lia.
  rewrite strlen_ok; [|revert F; apply Forall_impl; lia|exact R|exact A]. cbn [bind].
  assert (N : ncont cps = 0).
  { clear -F. induction F as [|b l B F IH]; [reflexivity|]. rewrite ncont_cons, IH. unfold bitc, iscont.
    destruct (_ && _) eqn:E; lia. }
  rewrite N, PN_INT_NUM' by (unfold two62; lia). replace ((zlen cps - 0 =? zlen cps) && (i <? zlen cps - 0)) with true by lia.
  rewrite rd_ok by (rewrite zlen_app; pose proof (zlen_nonneg (0 :: r)); lia). cbn [bind]. unfold znth.
  rewrite app_nth1 by (unfold zlen in *; lia).
  assert (HB : 1 <= nth (Z.to_nat i) cps 0 < 128).
  { rewrite Forall_forall in F. apply F. apply nth_In. unfold zlen in *. lia. }
  unfold schar. replace (_ <? 128) with true by lia. reflexivity.
Qed.
Example C53_example : str_ord 8 (encode 128512 ++ 0 :: [9;9;9]) 4 PN_NIL = Ok (PN_NUM 128512).
Proof. vm_compute. reflexivity. Qed.
(** Findings: for a non-ASCII text ord mixes the rest of the text into the
    result ("éa" ord(0) is 14945 instead of 233), and a negative position in an
    ASCII text reads before the characters. *)
Theorem C53_ord_of_longer_text_refuted :
  exists a cps r, text cps /\ block a (utf8 cps) r /\
   str_ord a (utf8 cps ++ 0 :: r) (zlen (utf8 cps)) (PN_NUM 0) = Ok (PN_NUM 14945) /\ nth 0 cps 0 = 233.
Proof.
  exists 4, [233; 97], []. split; [repeat constructor; unfold scalar; lia|].
  split; [split; [constructor|reflexivity]|]. split; [vm_compute; reflexivity|reflexivity].
Qed.
Theorem C53_ord_negative_refuted :
  forall a cps r i, Forall (fun c => 1 <= c < 128) cps -> zlen cps <= 255 -> block a cps r -> - two62 <= i < 0 ->
  str_ord a (cps ++ 0 :: r) (zlen cps) (PN_NUM i) = UB.
Proof.
  intros a cps r i F L [R A] Hi. unfold str_ord. replace (zlen cps >? 255) with false by lia.
  rewrite strlen_ok; [|revert F; apply Forall_impl; lia|exact R|exact A]. cbn [bind].
  assert (N : ncont cps = 0).
  { clear -F. induction F as [|b l B F IH]; [reflexivity|]. rewrite ncont_cons, IH. unfold bitc, iscont.
    destruct (_ && _) eqn:E; lia. }
  pose proof (zlen_nonneg cps). rewrite N, PN_INT_NUM' by (unfold two62 in *; lia).
  replace ((zlen cps - 0 =? zlen cps) && (i <? zlen cps - 0)) with true by lia.
  rewrite rd_ub by lia. reflexivity.
Qed.
