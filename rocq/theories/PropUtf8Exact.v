(** Exact characterisations for C28 and C29: what string slices and escapes do on the whole
    domain. *)
From Coq Require Import ZifyBool Permutation.
From Verif Require Import Base Arr WordModel WordProofs Utf8Spec Utf8Model Utf8Proofs PropUtf8.
Ltac Zify.zify_post_hook ::= Z.div_mod_to_equations.

(** the position up to which slice(i, j) takes, in a text of n characters: j, unless j comes
    before i in the order 0, 1, 2, ..., -2, -1 of the value words; then i + j + 1 *)
Definition slice_end (n i j : Z) : Z :=
  if (if i <? 0 then (0 <=? j) || (j <? i) else (0 <=? j) && (j <? i))
  then if i + j =? -1 then n else norm n (i + j + 1)
  else norm n j.
Lemma offs_mono cps a b : text cps -> 0 <= a < b -> b <= zlen cps ->
  zlen (utf8 (firstn (Z.to_nat a) cps)) < zlen (utf8 (firstn (Z.to_nat b) cps)) <= zlen (utf8 cps).
Proof.
  intros T A B. set (m := firstn (Z.to_nat (b - a)) (skipn (Z.to_nat a) cps)).
  assert (E : firstn (Z.to_nat b) cps = firstn (Z.to_nat a) cps ++ m).
  { unfold m. rewrite <- (firstn_skipn (Z.to_nat a) (firstn (Z.to_nat b) cps)).
    rewrite firstn_firstn. f_equal; [f_equal; lia|]. rewrite skipn_firstn_comm. f_equal. lia. }
  assert (E2 : cps = firstn (Z.to_nat b) cps ++ skipn (Z.to_nat b) cps) by (symmetry; apply firstn_skipn).
  assert (Tm : text m). { unfold m. apply Forall_forall. intros x Hx. unfold text in T; rewrite Forall_forall in T; apply T.
    rewrite <- (firstn_skipn (Z.to_nat a) cps). apply in_or_app. right.
    rewrite <- (firstn_skipn (Z.to_nat (b - a)) (skipn (Z.to_nat a) cps)). apply in_or_app. left. exact Hx. }
  split.
  - rewrite E, utf8_app, zlen_app. pose proof (zlen_utf8_ge m Tm).
    assert (zlen m = b - a). { unfold m, zlen in *. rewrite firstn_length, skipn_length. lia. } lia.
  - rewrite E2 at 2. rewrite utf8_app, zlen_app. pose proof (zlen_nonneg (utf8 (skipn (Z.to_nat b) cps))). lia.
Qed.

(** C28: slice(i, j) for all positions: with s and e the normalised start and end, the
    characters from s up to e; undefined (a copy of almost 2^64 bytes) when e comes before s *)
Theorem C28_slice_exact :
  forall a cps r i j, text cps -> block a (utf8 cps) r -> zlen (utf8 cps ++ 0 :: r) < 2147483648 ->
  - 2^30 <= i < 2^30 -> - 2^30 <= j < 2^30 ->
  let s := norm (zlen cps) i in let e := slice_end (zlen cps) i j in
  str_slice a (utf8 cps ++ 0 :: r) (PN_NUM i) (PN_NUM j) =
    if s <=? e then Ok (Some (utf8 (firstn (Z.to_nat (e - s)) (skipn (Z.to_nat s) cps)))) else UB.
Proof.
  intros a cps r i j T [R A] LL SI SJ s e. pose proof (zlen_utf8_ge cps T) as LG. pose proof (zlen_nonneg cps) as N0.
  assert (L : zlen (utf8 cps) < 2147483648) by (rewrite zlen_app in LL; pose proof (zlen_nonneg (0 :: r)); lia).
  assert (Si : small i) by (unfold small; lia). assert (Sj : small j) by (unfold small; lia).
  unfold str_slice. rewrite strlen_ok; [|apply utf8_chars, T|exact R|exact A]. cbn [bind]. rewrite (utf8_ncont cps T).
  rewrite (proj2 (Z.eqb_neq _ _) (PN_NUM_not_nil i)), (proj2 (Z.eqb_neq _ _) (PN_NUM_not_nil j)).
  cbn zeta. rewrite PN_NUM_ltb by assumption.
  assert (Hs : 0 <= s <= zlen cps) by (apply norm_range; lia).
  assert (EE : (if (if i <? 0 then (0 <=? j) || (j <? i) else (0 <=? j) && (j <? i))
       then utf8char_offset (utf8 cps ++ 0 :: r) (u64 (PN_INT (str_slice_index (u64 (PN_NUM i + PN_NUM j)) (zlen cps) (zlen cps)))) 0
       else utf8char_offset (utf8 cps ++ 0 :: r) (u64 (PN_INT (str_slice_index (PN_NUM j) (zlen cps) (zlen cps)))) 0)
     = Ok (zlen (utf8 (firstn (Z.to_nat e) cps))) /\ 0 <= e <= zlen cps).
  { unfold e, slice_end. destruct (if i <? 0 then _ else _) eqn:B.
    - assert (IX : PN_INT (str_slice_index (u64 (PN_NUM i + PN_NUM j)) (zlen cps) (zlen cps)) = if i + j =? -1 then zlen cps else norm (zlen cps) (i + j + 1)).
      { unfold str_slice_index. assert (W : u64 (PN_NUM i + PN_NUM j) = u64 (2 * (i + j + 1))) by (rewrite !PN_NUM_eq; unfold u64, two64; lia).
        rewrite W. unfold PN_IS_NIL, PN_NIL. destruct (Z.eqb_spec (i + j) (-1)) as [Q|Q].
        - replace (i + j + 1) with 0 by lia. cbn [Z.mul]. change (u64 0 =? 0) with true. cbn iota.
          rewrite s32_id by lia. apply PN_INT_NUM'. unfold two62. lia.
        - replace (u64 (2 * (i + j + 1)) =? 0) with false by (unfold u64, two64; lia).
          assert (P : PN_INT (u64 (2 * (i + j + 1))) = i + j + 1) by (rewrite PN_INT_eq; unfold s64, u64, two64, two63; lia).
          rewrite P. rewrite (s32_id (i + j + 1)) by lia. unfold norm.
          destruct (i + j + 1 <? 0) eqn:Q1.
          + cbn zeta. rewrite s32_id by lia. rewrite PN_INT_NUM'; [destruct (i + j + 1 + zlen cps <? 0) eqn:?; lia|].
            unfold two62. destruct (i + j + 1 + zlen cps <? 0) eqn:?; lia.
          + rewrite (s32_id (zlen cps)) by lia. rewrite PN_INT_NUM'; [destruct (i + j + 1 >? zlen cps) eqn:?; lia|].
            unfold two62. destruct (i + j + 1 >? zlen cps) eqn:?; lia. }
      rewrite IX. pose proof (norm_range (zlen cps) (i + j + 1) N0).
      destruct (i + j =? -1); rewrite (offset_ok cps r T) by (unfold u64, two64; lia); rewrite Z.add_0_l;
        (split; [do 4 f_equal; f_equal; unfold u64, two64; lia|lia]).
    - rewrite slice_index_ok by (assumption || lia). pose proof (norm_range (zlen cps) j N0).
      rewrite (offset_ok cps r T) by (unfold u64, two64; lia). rewrite Z.add_0_l.
      split; [do 4 f_equal; f_equal; unfold u64, two64; lia|lia]. }
  destruct EE as [EE He]. rewrite slice_index_ok by (assumption || lia).
  rewrite (offset_ok cps r T) by (unfold u64, two64; fold s; lia). cbn [bind]. rewrite EE. cbn [bind]. rewrite Z.add_0_l.
  replace (u64 (norm (zlen cps) i)) with s by (unfold u64, two64, s in *; lia).
  destruct (s <=? e) eqn:Q.
  - rewrite slice_core by (assumption || lia). reflexivity.
  - pose proof (offs_mono cps e s T ltac:(lia) ltac:(lia)) as [M1 M2].
    pose proof (zlen_nonneg (utf8 (firstn (Z.to_nat e) cps))).
    unfold substr. match goal with |- context [if ?b then _ else _] => replace b with false; [reflexivity|] end.
    unfold u64, two64. lia.
Qed.
Print Assumptions C28_slice_exact.
(** without an end: the end is the length, so from a negative start the same rule applies *)
Theorem C28_slice_without_end_exact :
  forall a cps r i, text cps -> block a (utf8 cps) r -> zlen (utf8 cps ++ 0 :: r) < 2^30 -> - 2^30 <= i < 2^30 ->
  str_slice a (utf8 cps ++ 0 :: r) (PN_NUM i) PN_NIL = str_slice a (utf8 cps ++ 0 :: r) (PN_NUM i) (PN_NUM (zlen cps)) /\
  (i < 0 -> slice_end (zlen cps) i (zlen cps) = norm (zlen cps) (if i + zlen cps =? -1 then zlen cps else i + zlen cps + 1)).
Proof.
  intros a cps r i T [R A] LL Hi. pose proof (zlen_nonneg cps). split.
  - unfold str_slice. rewrite strlen_ok; [|apply utf8_chars, T|exact R|exact A]. cbn [bind]. rewrite (utf8_ncont cps T).
    rewrite (proj2 (Z.eqb_neq _ _) (PN_NUM_not_nil (zlen cps))). reflexivity.
  - intros Hn. unfold slice_end. replace (i <? 0) with true by lia. replace ((0 <=? zlen cps) || (zlen cps <? i)) with true by lia.
    destruct (i + zlen cps =? -1); [unfold norm; replace (zlen cps <? 0) with false by lia; lia|reflexivity].
Qed.
Print Assumptions C28_slice_without_end_exact.
Example C28_exact_example : let cps := [97; 98; 99; 100; 101; 102] in
  text cps /\ block 1 (utf8 cps) [] /\ slice_end 6 (-5) 4 = 6 /\
  str_slice 1 (utf8 cps ++ 0 :: []) (PN_NUM (-5)) (PN_NUM 4) = Ok (Some (utf8 [98; 99; 100; 101; 102])) /\
  str_slice 1 (utf8 cps ++ 0 :: []) (PN_NUM (-1)) (PN_NUM (-2)) = UB.
Proof.
  cbv zeta. split; [repeat constructor; unfold scalar; lia|]. split; [split; [constructor|reflexivity]|].
  split; [reflexivity|]. split; vm_compute; reflexivity.
Qed.

(** C29: both escapes, for every number *)
Theorem C29_escape_exact : forall c, 0 <= c ->
  escU c = (if (c =? 192) || (c =? 193) then None                       (* À, Á are refused *)
            else if c =? 2047 then Some [224; 159; 191]                 (* overlong *)
            else if c =? 65535 then Some [240; 143; 191; 191]           (* overlong *)
            else if c =? 57343 then Some [237; 191; 191]                (* a surrogate is accepted *)
            else if (55296 <=? c) && (c <=? 57343) then None            (* surrogates *)
            else if 1114110 <? c then None                              (* above U+10FFFE *)
            else Some (encode c)) /\
  (c < 65536 ->
   escu c = (if (c =? 192) || (c =? 193) then None
             else if c =? 2047 then Some [224; 159; 191]
             else if c =? 57343 then Some [237; 191; 191]
             else if (55296 <=? c) && (c <=? 57343) then None
             else Some (encode c))).
Proof.
  intros c H0. split.
  - destruct (Z.eqb_spec c 192) as [->|]; [reflexivity|]. destruct (Z.eqb_spec c 193) as [->|]; [reflexivity|]. cbn [orb].
    destruct (Z.eqb_spec c 2047) as [->|]; [reflexivity|]. destruct (Z.eqb_spec c 65535) as [->|]; [reflexivity|].
    destruct (Z.eqb_spec c 57343) as [->|]; [reflexivity|].
    destruct ((55296 <=? c) && (c <=? 57343)) eqn:E1.
    { apply (proj1 C29_escape_rejects_non_scalars). lia. }
    destruct (1114110 <? c) eqn:E2.
    { destruct (Z.eqb_spec c 1114111) as [->|]; [reflexivity|]. apply (proj2 C29_escape_rejects_non_scalars). lia. }
    apply C29_escape_U_encodes; [unfold scalar; lia|cbn; lia].
  - intros H1.
    destruct (Z.eqb_spec c 192) as [->|]; [reflexivity|]. destruct (Z.eqb_spec c 193) as [->|]; [reflexivity|]. cbn [orb].
    destruct (Z.eqb_spec c 2047) as [->|]; [reflexivity|].
    destruct (Z.eqb_spec c 57343) as [->|]; [reflexivity|].
    destruct ((55296 <=? c) && (c <=? 57343)) eqn:E1.
    { apply C29_escape_rejects_non_scalars. lia. }
    apply C29_escape_u_encodes; [unfold scalar; lia|lia|cbn; lia].
Qed.
Print Assumptions C29_escape_exact.
Example C29_exact_example : escU 8364 = Some (encode 8364) /\ encode 8364 = [226; 130; 172].
Proof. split; reflexivity. Qed.
