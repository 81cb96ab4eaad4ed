(** Property C56: the generated field-lookup function. *)
From Coq Require Import ZifyBool.
From Verif Require Import Base Arr GArr WordModel ObjModel.
Ltac Zify.zify_post_hook ::= Z.div_mod_to_equations.

Lemma le_bytes_len n x : length (le_bytes n x) = n.
Proof. revert x; induction n; intros x; cbn; [reflexivity|]. f_equal. apply IHn. Qed.
Lemma le_val_bytes n : forall x, 0 <= x < 256 ^ Z.of_nat n -> le_val (le_bytes n x) = x.
Proof.
  induction n as [|n IH]; intros x H.
  - change (256 ^ Z.of_nat 0) with 1 in H. cbn. lia.
  - cbn [le_bytes le_val]. rewrite Nat2Z.inj_succ, Z.pow_succ_r in H by lia. rewrite IH; [lia|].
    split; [apply Z.div_pos; lia|]. apply Z.div_lt_upper_bound; lia.
Qed.
Lemma skipn_app_len {A} (a b : list A) : skipn (length a) (a ++ b) = b.
Proof. induction a; [reflexivity|]. cbn. exact IHa. Qed.
Lemma take_le n x r : take_n n (le_bytes n x ++ r) = Some (le_bytes n x, r).
Proof.
  unfold take_n. rewrite app_length, le_bytes_len. destruct (Nat.ltb_spec (n + length r) n); [lia|].
  pose proof (le_bytes_len n x) as L. rewrite <- L at 1 3. rewrite skipn_app_len.
  rewrite firstn_app, firstn_all, Nat.sub_diag. cbn [firstn]. rewrite app_nil_r. reflexivity.
Qed.

Lemma at_pc (pre code : list Z) : skipn (Z.to_nat (zlen pre)) (pre ++ code) = code.
Proof. unfold zlen. rewrite Nat2Z.id. apply skipn_app_len. Qed.

Section Steps.
Variables (pre : list Z) (edi rax : Z) (zf : bool) (f : nat) (rest : list Z).
Let pos : (zlen pre <? 0) = false.
Proof. pose proof (zlen_nonneg pre). lia. Qed.
Lemma step_cmp x : 0 <= x < 256 ^ 4 ->
  x86_run (S f) (pre ++ 129 :: 255 :: le_bytes 4 x ++ rest) (zlen pre) edi rax zf =
  x86_run f (pre ++ 129 :: 255 :: le_bytes 4 x ++ rest) (zlen pre + 6) edi rax (u32 edi =? x).
Proof.
  intros H. cbn [x86_run]. rewrite pos, at_pc, take_le, le_val_bytes by exact H. reflexivity.
Qed.
Lemma step_jnz : x86_run (S f) (pre ++ 117 :: 6 :: rest) (zlen pre) edi rax zf =
  x86_run f (pre ++ 117 :: 6 :: rest) (if zf then zlen pre + 2 else zlen pre + 8) edi rax zf.
Proof.
  cbn [x86_run]. rewrite pos, at_pc. change (6 <? 128) with true. cbv iota zeta.
  destruct zf; f_equal; lia.
Qed.
Lemma step_mov x : 0 <= x < 256 ^ 4 ->
  x86_run (S f) (pre ++ 184 :: le_bytes 4 x ++ rest) (zlen pre) edi rax zf =
  x86_run f (pre ++ 184 :: le_bytes 4 x ++ rest) (zlen pre + 5) edi x zf.
Proof. intros H. cbn [x86_run]. rewrite pos, at_pc, take_le, le_val_bytes by exact H. reflexivity. Qed.
Lemma step_movq x : 0 <= x < 256 ^ 8 ->
  x86_run (S f) (pre ++ 72 :: 184 :: le_bytes 8 x ++ rest) (zlen pre) edi rax zf =
  x86_run f (pre ++ 72 :: 184 :: le_bytes 8 x ++ rest) (zlen pre + 10) edi x zf.
Proof. intros H. cbn [x86_run]. rewrite pos, at_pc, take_le, le_val_bytes by exact H. reflexivity. Qed.
Lemma step_ret : x86_run (S f) (pre ++ 195 :: rest) (zlen pre) edi rax zf = Ok rax.
Proof. cbn [x86_run]. rewrite pos, at_pc. reflexivity. Qed.
End Steps.

(** ** Specification: position of the first field with the given identity *)
Fixpoint first_index (u : Z) (us : list Z) : option Z :=
  match us with
  | [] => None
  | x :: r => if x =? u then Some 0 else match first_index u r with Some i => Some (i + 1) | None => None end
  end.
Lemma u32_range x : 0 <= u32 x < 256 ^ 4.
Proof. unfold u32, two32. change (256 ^ 4) with 4294967296. lia. Qed.
Lemma pow8 : 256 ^ 8 = two64. Proof. reflexivity. Qed.
Lemma le4_len x : zlen (le_bytes 4 x) = 4.
Proof. unfold zlen. rewrite le_bytes_len. reflexivity. Qed.
Lemma le8_len x : zlen (le_bytes 8 x) = 8.
Proof. unfold zlen. rewrite le_bytes_len. reflexivity. Qed.

(** re-associate the code so that the next instruction is at the front *)
Lemma ivars_run u : forall us pre i fuel rax zf, (length us * 4 + 2 <= fuel)%nat -> 0 <= i -> i + zlen us <= two32 ->
  x86_run fuel (pre ++ ivars_entries us i ++ [72; 184] ++ le_bytes 8 (u64 (-1)) ++ [195]) (zlen pre) u rax zf =
  Ok (match first_index (u32 u) (map u32 us) with Some k => i + k | None => two64 - 1 end).
Proof.
  induction us as [|x us IH]; intros pre i fuel rax zf F I0 IL.
  - cbn [ivars_entries app map first_index]. destruct fuel as [|[|fuel]]; cbn [length] in F; try lia.
    rewrite step_movq by (rewrite pow8; unfold u64, two64; lia).
    replace (zlen pre + 10) with (zlen (pre ++ 72 :: 184 :: le_bytes 8 (u64 (-1)))).
    2:{ rewrite zlen_app, !zlen_cons, le8_len. lia. }
    change (pre ++ 72 :: 184 :: le_bytes 8 (u64 (-1)) ++ [195]) with (pre ++ (72 :: 184 :: le_bytes 8 (u64 (-1))) ++ [195]).
    rewrite app_assoc, step_ret. reflexivity.
  - rewrite zlen_cons in IL. pose proof (zlen_nonneg us) as UL.
    destruct fuel as [|[|[|[|fuel]]]]; cbn [length] in F; try lia.
    cbn [ivars_entries]. unfold ivars_entry. rewrite <- !app_assoc. cbn [app].
    set (tl := ivars_entries us (i + 1) ++ 72 :: 184 :: le_bytes 8 (u64 (-1)) ++ [195]).
    set (B := le_bytes 4 (u32 x)). set (C := le_bytes 4 (u32 i)).
    assert (LB : zlen B = 4) by apply le4_len. assert (LC : zlen C = 4) by apply le4_len.
    unfold B. rewrite step_cmp by apply u32_range. fold B.
    replace (zlen pre + 6) with (zlen (pre ++ 129 :: 255 :: B)) by (rewrite zlen_app, !zlen_cons; lia).
    change (pre ++ 129 :: 255 :: B ++ 117 :: 6 :: 184 :: C ++ 195 :: tl)
      with (pre ++ (129 :: 255 :: B) ++ 117 :: 6 :: 184 :: C ++ 195 :: tl).
    rewrite app_assoc, step_jnz. cbn [map first_index]. rewrite (Z.eqb_sym (u32 x)).
    destruct (u32 u =? u32 x) eqn:EQ.
    + replace (zlen (pre ++ 129 :: 255 :: B) + 2) with (zlen ((pre ++ 129 :: 255 :: B) ++ [117; 6])) by (rewrite zlen_app, !zlen_cons, zlen_nil; lia).
      change ((pre ++ 129 :: 255 :: B) ++ 117 :: 6 :: 184 :: C ++ 195 :: tl)
        with ((pre ++ 129 :: 255 :: B) ++ [117; 6] ++ 184 :: C ++ 195 :: tl).
      rewrite app_assoc. unfold C. rewrite step_mov by apply u32_range. fold C.
      replace (zlen ((pre ++ 129 :: 255 :: B) ++ [117; 6]) + 5) with (zlen (((pre ++ 129 :: 255 :: B) ++ [117; 6]) ++ 184 :: C)).
      2:{ rewrite (zlen_app _ (184 :: C)), zlen_cons. lia. }
      change (((pre ++ 129 :: 255 :: B) ++ [117; 6]) ++ 184 :: C ++ 195 :: tl)
        with (((pre ++ 129 :: 255 :: B) ++ [117; 6]) ++ (184 :: C) ++ 195 :: tl).
      rewrite app_assoc, step_ret. f_equal. unfold u32, two32 in *. lia.
    + replace (zlen (pre ++ 129 :: 255 :: B) + 8) with (zlen (pre ++ (129 :: 255 :: B) ++ 117 :: 6 :: 184 :: C ++ [195])).
      2:{ rewrite !zlen_app, !zlen_cons, zlen_app, zlen_cons, zlen_nil. lia. }
      replace ((pre ++ 129 :: 255 :: B) ++ 117 :: 6 :: 184 :: C ++ 195 :: tl)
        with ((pre ++ (129 :: 255 :: B) ++ 117 :: 6 :: 184 :: C ++ [195]) ++ tl).
      2:{ rewrite <- !app_assoc. cbn [app]. rewrite <- !app_assoc. cbn [app]. reflexivity. }
      unfold tl. change (72 :: 184 :: le_bytes 8 (u64 (-1)) ++ [195]) with ([72; 184] ++ le_bytes 8 (u64 (-1)) ++ [195]).
      rewrite IH by lia.
      f_equal. destruct (first_index (u32 u) (map u32 us)); lia.
Qed.

(** ** C56 *)
(** The machine code emitted for a list of fields, run by the processor, always
    stops and returns the position of the first field whose identity number is
    the one asked for, and -1 (all ones) when there is none.  [us] are the
    identity numbers of the fields in order. *)
Theorem C56_generated_lookup : forall us u, zlen us <= two32 ->
  terminates (fun fuel => x86_run fuel (x86_ivars us) 0 u 0 false)
    (Ok (match first_index (u32 u) (map u32 us) with Some i => i | None => two64 - 1 end)).
Proof.
  intros us u L. exists (length us * 4 + 2)%nat. intros n N.
  pose proof (ivars_run u us [] 0 n 0 false N) as H. cbn [app] in H. change (zlen (@nil Z)) with 0 in H. unfold x86_ivars.
  cbn [app]. rewrite H by lia. destruct (first_index (u32 u) (map u32 us)); f_equal; lia.
Qed.
Print Assumptions C56_generated_lookup.
Lemma first_index_spec u us : match first_index u us with
  | Some i => 0 <= i /\ nth_error us (Z.to_nat i) = Some u /\ (forall j, (j < Z.to_nat i)%nat -> nth_error us j <> Some u)
  | None => ~ In u us end.
Proof.
  induction us as [|x us IH]; cbn [first_index]; [intros []|]. destruct (Z.eqb_spec x u) as [->|N].
  - split; [lia|]. split; [reflexivity|]. intros j Hj. change (Z.to_nat 0) with 0%nat in Hj. lia.
  - destruct (first_index u us) as [i|].
    + destruct IH as (I0 & E & M). split; [lia|]. replace (Z.to_nat (i + 1)) with (S (Z.to_nat i)) by lia.
      split; [exact E|]. intros [|j] Hj; cbn; [congruence|]. apply M. lia.
    + intros [C|C]; contradiction.
Qed.
(** in particular, with pairwise different identity numbers the field at
    position i is found at position i *)
Theorem C56_every_field_found : forall us i u, zlen us <= two32 -> NoDup (map u32 us) ->
  nth_error us i = Some u ->
  terminates (fun fuel => x86_run fuel (x86_ivars us) 0 u 0 false) (Ok (Z.of_nat i)).
Proof.
  intros us i u L ND E. destruct (C56_generated_lookup us u L) as (n0 & H). exists n0. intros n N. rewrite (H n N). f_equal.
  assert (E' : nth_error (map u32 us) i = Some (u32 u)) by (rewrite nth_error_map, E; reflexivity).
  pose proof (first_index_spec (u32 u) (map u32 us)) as F. destruct (first_index (u32 u) (map u32 us)) as [k|].
  - destruct F as (K0 & EK & _). rewrite NoDup_nth_error in ND.
    assert (Z.to_nat k = i); [|lia]. apply ND; [|congruence]. apply nth_error_Some. congruence.
  - exfalso. apply F. apply nth_error_In in E'. exact E'.
Qed.
Print Assumptions C56_every_field_found.
(** two names with the same (randomly drawn) identity number share a slot *)
Theorem C56_collision_refuted : exists us i, nth_error us i = Some 7 /\
  terminates (fun fuel => x86_run fuel (x86_ivars us) 0 7 0 false) (Ok 0) /\ i = 1%nat.
Proof. exists [7; 7], 1%nat. split; [reflexivity|]. split; [|reflexivity]. apply (C56_generated_lookup [7; 7] 7). vm_compute. discriminate. Qed.
Print Assumptions C56_collision_refuted.
Example C56_example : x86_run 20 (x86_ivars [10; 4000000000; 30]) 0 4000000000 0 false = Ok 1 /\
  x86_run 20 (x86_ivars [10; 4000000000; 30]) 0 31 0 false = Ok (two64 - 1).
Proof. split; vm_compute; reflexivity. Qed.
