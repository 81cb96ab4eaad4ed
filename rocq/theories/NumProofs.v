(** Lemmas about integer arithmetic and loops. *)
From Coq Require Import ZifyBool.
From Verif Require Import Base WordModel WordProofs NumModel.
Ltac Zify.zify_post_hook ::= Z.div_mod_to_equations.

Lemma s64_id x : - two63 <= x < two63 -> s64 x = x.
Proof. unfold s64; unfold_consts; lia. Qed.

Lemma slong_ok x : - two63 <= x < two63 -> slong x = Ok x.
Proof. unfold slong, in_long. intros. replace ((- two63 <=? x) && (x <? two63)) with true by lia. reflexivity. Qed.

Lemma PN_INT_max : PN_INT (two63 - 1) = two62 - 1. Proof. reflexivity. Qed.
Lemma PN_INT_min : PN_INT (u64 (- two63)) = - two62. Proof. reflexivity. Qed.

Lemma vm_math3_spec op i j : repb i = true -> repb j = true ->
  vm_math3 op (PN_NUM i) (PN_NUM j) =
  if repb (zop op i j) then NWord (PN_NUM (zop op i j)) else NDouble op i j.
Proof.
  intros Hi Hj. unfold vm_math3. rewrite !PN_INT_NUM by assumption.
  rewrite PN_INT_max, PN_INT_min. set (e := zop op i j). clearbody e. cbv zeta.
  unfold in_long.
  destruct ((- two63 <=? e) && (e <? two63)) eqn:E.
  - rewrite s64_id by lia. cbn [negb orb]. unfold repb.
    destruct ((- two62 <=? e) && (e <? two62)) eqn:E2.
    + replace ((two62 - 1 <? e) || (e <? - two62)) with false by lia. reflexivity.
    + replace ((two62 - 1 <? e) || (e <? - two62)) with true by lia. reflexivity.
  - cbn [negb orb]. unfold repb. replace ((- two62 <=? e) && (e <? two62)) with false; [reflexivity|].
    unfold_consts. lia.
Qed.

Lemma num_math_addsub op i j : (op = Add \/ op = Sub) -> repb i = true -> repb j = true ->
  num_math op (PN_NUM i) (PN_NUM j) = Ok (PN_NUM (zop op i j)).
Proof.
  intros Hop Hi Hj. unfold num_math. rewrite !PN_INT_NUM by assumption.
  rewrite repb_spec in Hi, Hj. unfold two62 in *.
  destruct Hop as [-> | ->]; cbn [c_long_op zop]; rewrite slong_ok by (unfold_consts; lia); reflexivity.
Qed.

Lemma num_math_mul_exact i j : repb i = true -> repb j = true -> repb (i * j) = true ->
  num_math Mul (PN_NUM i) (PN_NUM j) = Ok (PN_NUM (i * j)).
Proof.
  intros Hi Hj He. unfold num_math. rewrite !PN_INT_NUM by assumption. cbn [c_long_op].
  rewrite repb_spec in He. rewrite slong_ok by (unfold_consts; lia). reflexivity.
Qed.

Lemma quot_range i j : repb i = true -> j <> 0 -> - two62 <= Z.quot i j <= two62.
Proof.
  rewrite repb_spec. intros Hi Hj.
  assert (Z.abs (Z.quot i j) <= Z.abs i).
  { rewrite <- Z.quot_abs by assumption.
    rewrite Z.quot_div_nonneg by lia.
    apply Z.div_le_upper_bound; nia. }
  unfold_consts. lia.
Qed.

Lemma num_math_div i j : repb i = true -> repb j = true -> j <> 0 ->
  num_math Div (PN_NUM i) (PN_NUM j) = Ok (PN_NUM (Z.quot i j)).
Proof.
  intros Hi Hj H0. unfold num_math. rewrite !PN_INT_NUM by assumption. cbn [c_long_op].
  replace (j =? 0) with false by lia.
  pose proof (quot_range i j Hi H0). rewrite slong_ok by (unfold_consts; lia). reflexivity.
Qed.

Lemma num_math_rem i j : repb i = true -> repb j = true -> j <> 0 ->
  num_math Rem (PN_NUM i) (PN_NUM j) = Ok (PN_NUM (Z.rem i j)).
Proof.
  intros Hi Hj H0. unfold num_math. rewrite !PN_INT_NUM by assumption. cbn [c_long_op].
  replace (j =? 0) with false by lia. rewrite repb_spec in Hi.
  replace ((i =? - two63) && (j =? -1)) with false by (unfold_consts; lia). reflexivity.
Qed.

(** loops *)
Lemma cwhile_unfold {S} n (c : S -> bool) b s :
  cwhile (Datatypes.S n) c b s = if c s then do s' <- b s; cwhile n c b s' else Ok s.
Proof. reflexivity. Qed.

Lemma map_zseq_shift {A} (f g : Z -> A) n a : (forall x, f x = g (x + 1)) ->
  map f (zseq a n) = map g (zseq (a + 1) n).
Proof.
  intros H. revert a. induction n as [|n IH]; intros a; [reflexivity|].
  cbn [zseq map]. rewrite H, IH. reflexivity.
Qed.

Section L.
  Context {S : Type} (blk : S -> Z -> S).

  Lemma times_loop n i j s :
    (0 <= i) -> j < two62 -> Z.of_nat n = Z.max 0 (j - i) -> forall m, (n < m)%nat ->
    cwhile m (fun p => snd p <? j)
      (fun p => do i' <- slong (snd p + 1); Ok (blk (fst p) (PN_NUM (snd p)), i')) (s, i)
    = Ok (fold_left blk (map PN_NUM (zseq i n)) s, Z.max i j).
  Proof.
    revert i s. induction n as [|n IH]; intros i s Hi Hj Hn m Hm;
      (destruct m as [|m]; [lia|]); rewrite cwhile_unfold; cbn [fst snd].
    - replace (i <? j) with false by lia. cbn [zseq map fold_left]. f_equal. f_equal. lia.
    - replace (i <? j) with true by lia. rewrite slong_ok by (unfold_consts; lia).
      cbn [bind]. rewrite IH by lia. cbn [zseq map fold_left]. f_equal. f_equal. lia.
  Qed.

  (** generic stride loop with exit test i <> lim *)
  Lemma to_loop n i d lim s : (d = 1 \/ d = -1) ->
    - two63 < lim < two63 - 1 -> lim = i + d * Z.of_nat n -> - two63 < i < two63 - 1 ->
    forall m, (n < m)%nat ->
    cwhile m (fun p => negb (snd p =? lim))
      (fun p => do i' <- slong (snd p + d); Ok (blk (fst p) (PN_NUM (snd p)), i')) (s, i)
    = Ok (fold_left blk (map (fun x => PN_NUM (i + d * x)) (zseq 0 n)) s, lim).
  Proof.
    revert i s. induction n as [|n IH]; intros i s Hd Hl Hlim Hi m Hm;
      (destruct m as [|m]; [lia|]); rewrite cwhile_unfold; cbn [fst snd].
    - replace (i =? lim) with true by lia. cbn [zseq map fold_left negb]. f_equal. f_equal. lia.
    - replace (i =? lim) with false by lia. cbn [negb].
      rewrite slong_ok by (unfold_consts; lia). cbn [bind].
      rewrite IH by (try assumption; unfold_consts; lia).
      cbn [zseq map fold_left]. do 2 f_equal. 
      rewrite (map_zseq_shift _ (fun x => PN_NUM (i + d * x))) by (intros; f_equal; lia).
      f_equal. do 2 f_equal. lia.
  Qed.

  Lemma step_loop n i j k s : 0 < k -> k < two62 -> j < two62 -> - two62 <= i ->
    (n = 0%nat /\ j < i \/ (0 < n)%nat /\ i + k * (Z.of_nat n - 1) <= j < i + k * Z.of_nat n) ->
    forall m, (n < m)%nat ->
    cwhile m (fun p => snd p <=? j)
      (fun p => do i' <- slong (snd p + k); Ok (blk (fst p) (PN_NUM (snd p)), i')) (s, i)
    = Ok (fold_left blk (map (fun x => PN_NUM (i + k * x)) (zseq 0 n)) s, i + k * Z.of_nat n).
  Proof.
    revert i s. induction n as [|n IH]; intros i s Hk Hk2 Hj Hi Hn m Hm;
      (destruct m as [|m]; [lia|]); rewrite cwhile_unfold; cbn [fst snd].
    - replace (i <=? j) with false by lia. cbn [zseq map fold_left]. f_equal. f_equal. lia.
    - assert (i <= j) by nia.
      replace (i <=? j) with true by lia. 
      rewrite slong_ok by (unfold_consts; lia). cbn [bind].
      rewrite IH; [ | lia | lia | lia | lia | | lia].
      + cbn [zseq map fold_left].
        rewrite (map_zseq_shift _ (fun x => PN_NUM (i + k * x))) by (intros; f_equal; lia).
        f_equal. f_equal; [|lia]. f_equal. do 2 f_equal. lia.
      + destruct Hn as [[? ?]|[_ Hn]]; [lia|].
        destruct n; [left; lia|right; split; [lia|]].
        rewrite !Nat2Z.inj_succ in *. nia.
  Qed.

  Lemma step_zero_diverges i j s m : i <= j -> - two62 <= i < two62 ->
    cwhile m (fun p => snd p <=? j)
      (fun p => do i' <- slong (snd p + 0); Ok (blk (fst p) (PN_NUM (snd p)), i')) (s, i) = NoFuel.
  Proof.
    intros Hij Hi. revert s. induction m as [|m IH]; intros s; [reflexivity|].
    rewrite cwhile_unfold. cbn [fst snd]. replace (i <=? j) with true by lia.
    rewrite slong_ok by (unfold_consts; lia). cbn [bind]. rewrite Z.add_0_r. apply IH.
  Qed.
End L.

(** text *)
Fixpoint positional (B : Z) (ds : list Z) (acc : Z) : Z :=
  match ds with [] => acc | d :: r => positional B r (acc * B + d) end.

Lemma positional_acc B ds acc : positional B ds acc = acc * B ^ Z.of_nat (length ds) + positional B ds 0.
Proof.
  revert acc. induction ds as [|d ds IH]; intros acc; cbn [positional length].
  - change (Z.of_nat 0) with 0. rewrite Z.pow_0_r. lia.
  - rewrite IH, (IH (0 * B + d)). rewrite Nat2Z.inj_succ, Z.pow_succ_r by lia. lia.
Qed.

Lemma positional_bound B ds : 1 < B -> Forall (fun d => 0 <= d < B) ds ->
  0 <= positional B ds 0 < B ^ Z.of_nat (length ds).
Proof.
  intros HB. induction 1 as [|d ds Hd Hf IH]; cbn [positional length].
  - change (Z.of_nat 0) with 0. rewrite Z.pow_0_r. lia.
  - rewrite positional_acc, Nat2Z.inj_succ, Z.pow_succ_r by lia. nia.
Qed.

(** all characters are digits with values ds *)
Definition digits_are (s : list Z) (ds : list Z) : Prop := map digit_of s = map Some ds.

Lemma atoi_loop_spec B s ds tl acc : 1 < B -> 0 <= acc -> digits_are s ds ->
  Forall (fun d => 0 <= d < B) ds ->
  positional B ds acc < two63 ->
  atoi_loop (s ++ tl) (length s) B acc = Ok (positional B ds acc).
Proof.
  intros HB. revert s acc. induction ds as [|d ds IH]; intros s acc Hacc Hd Hf Hlt;
    destruct s as [|c s]; try discriminate.
  - reflexivity.
  - unfold digits_are in Hd. cbn in Hd. injection Hd as Hc Hs. inversion_clear Hf as [|? ? Hd0 Hf'].
    cbn [app length atoi_loop]. rewrite Hc. cbn [positional] in Hlt |- *.
    pose proof Hlt as Hlt2. rewrite positional_acc in Hlt2.
    pose proof (positional_bound B ds HB Hf').
    assert (1 <= B ^ Z.of_nat (length ds)) by (apply (Z.pow_le_mono_r B 0); lia).
    assert (acc * B + d < two63) by nia.
    rewrite slong_ok by (unfold_consts; nia). cbn [bind].
    rewrite slong_ok by (unfold_consts; nia). cbn [bind].
    apply IH; [nia | exact Hs | exact Hf' | exact Hlt].
Qed.

Lemma digits_range s ds : digits_are s ds -> Forall (fun d => 0 <= d < 16) ds.
Proof.
  revert ds. induction s as [|c s IH]; intros [|d ds] H; try discriminate; constructor.
  - injection H as Hc _. unfold digit_of in Hc.
    destruct ((48 <=? c) && (c <=? 57)) eqn:E1; [injection Hc; lia|].
    destruct ((65 <=? c) && (c <=? 70)) eqn:E2; [injection Hc; lia|].
    destruct ((97 <=? c) && (c <=? 102)) eqn:E3; [injection Hc; lia|discriminate].
  - injection H as _ Hs. apply IH, Hs.
Qed.

(** decimal printing: the digits printed for n have positional value n *)
Lemma dec_digits_gen : forall fuel n acc, 0 <= n < 10 ^ Z.of_nat fuel -> (0 < fuel)%nat ->
    exists ds, ds <> [] /\ dec_digits fuel n acc = map (Z.add 48) ds ++ acc /\
      Forall (fun d => 0 <= d < 10) ds /\ positional 10 ds 0 = n /\
      (n = 0 -> length ds = 1%nat) /\ (0 < n -> 10 ^ (Z.of_nat (length ds) - 1) <= n).
Proof.
  induction fuel as [|fuel IH]; intros n acc Hn Hf; [lia|].
  cbn [dec_digits]. destruct (Z.eqb_spec (n / 10) 0) as [E|E].
  - exists [n mod 10]. split; [discriminate|]. split; [reflexivity|].
    split; [repeat constructor; lia|]. cbn [positional length].
    split; [lia|]. split; [reflexivity|]. intros. change (10 ^ (Z.of_nat 1 - 1)) with 1. lia.
  - destruct fuel as [|fuel].
    { exfalso. change (10 ^ Z.of_nat 1) with 10 in Hn. lia. }
    rewrite Nat2Z.inj_succ, Z.pow_succ_r in Hn by lia.
    destruct (IH (n / 10) (48 + n mod 10 :: acc)) as (ds & Hne & Hd & Hr & Hp & H0 & Hg); [lia|lia|].
    exists (ds ++ [n mod 10]). split; [destruct ds; discriminate|].
    split; [rewrite Hd, map_app, <- app_assoc; reflexivity|].
    split; [apply Forall_app; split; [assumption|repeat constructor; lia]|].
    assert (Hpos : forall l d a, positional 10 (l ++ [d]) a = positional 10 l a * 10 + d).
    { clear. induction l as [|x l IHl]; intros d a; cbn [app positional]; [reflexivity|apply IHl]. }
    split; [rewrite Hpos, Hp; lia|]. rewrite app_length. cbn [length].
    split; [lia|]. intros Hn0.
    assert (10 ^ (Z.of_nat (length ds) - 1) <= n / 10) by (apply Hg; lia).
    replace (Z.of_nat (length ds + 1) - 1) with (Z.succ (Z.of_nat (length ds) - 1)) by lia.
    destruct ds as [|x ds]; [congruence|].
    rewrite Z.pow_succ_r by (cbn [length]; lia). lia.
Qed.

Lemma dec_digits_spec fuel n acc : 0 <= n < 10 ^ Z.of_nat fuel -> (0 < fuel)%nat ->
  exists ds, ds <> [] /\ dec_digits fuel n acc = map (Z.add 48) ds ++ acc /\
             Forall (fun d => 0 <= d < 10) ds /\ positional 10 ds 0 = n /\
             (n < 10 ^ 9 -> (length ds <= 9)%nat) /\ (10 ^ 9 <= n -> (10 <= length ds)%nat).
Proof.
  intros Hn Hf.
  destruct (dec_digits_gen fuel n acc Hn Hf) as (ds & Hne & Hd & Hr & Hp & H0 & Hg).
  exists ds. split; [exact Hne|]. split; [exact Hd|]. split; [exact Hr|]. split; [exact Hp|]. split.
  - intros Hlt. destruct (Z.eq_dec n 0) as [E|E]; [rewrite H0 by assumption; lia|].
    assert (10 ^ (Z.of_nat (length ds) - 1) <= n) by (apply Hg; lia).
    destruct (le_lt_dec (length ds) 9) as [|L]; [assumption|].
    assert (10 ^ 9 <= 10 ^ (Z.of_nat (length ds) - 1)) by (apply Z.pow_le_mono_r; lia). lia.
  - intros Hge. pose proof (positional_bound 10 ds ltac:(lia) Hr) as Hb. rewrite Hp in Hb.
    destruct (le_lt_dec 10 (length ds)) as [|L]; [assumption|].
    assert (10 ^ Z.of_nat (length ds) <= 10 ^ 9) by (apply Z.pow_le_mono_r; lia). lia.
Qed.

Lemma digit_chars ds : Forall (fun d => 0 <= d < 10) ds ->
  digits_are (map (Z.add 48) ds) ds /\ span_digits (map (Z.add 48) ds) = length ds.
Proof.
  induction 1 as [|d ds Hd Hf [IH1 IH2]]; [split; reflexivity|]. unfold digits_are in *. cbn [map span_digits length].
  split.
  - rewrite IH1. f_equal. unfold digit_of. replace ((48 <=? 48 + d) && (48 + d <=? 57)) with true by lia.
    f_equal. lia.
  - replace ((48 + d <? 48) || (57 <? 48 + d)) with false by lia. rewrite IH2. reflexivity.
Qed.

Lemma digit_chars_range ds : Forall (fun d => 0 <= d < 10) ds ->
  Forall (fun c => 48 <= c <= 57) (map (Z.add 48) ds).
Proof. induction 1; cbn [map]; constructor; [lia|assumption]. Qed.

Lemma pn_atoi_digits ds tl n : Forall (fun d => 0 <= d < 10) ds -> ds <> [] ->
  positional 10 ds 0 < two63 -> n = length ds ->
  PN_ATOI (map (Z.add 48) ds ++ tl) n 10 = Ok (positional 10 ds 0).
Proof.
  intros Hf Hne Hlt ->. destruct (digit_chars ds Hf) as [Hd _].
  pose proof (digit_chars_range ds Hf) as Hr.
  destruct ds as [|d ds]; [congruence|]. cbn [map app] in *. unfold PN_ATOI.
  apply Forall_inv in Hr. cbn beta in Hr. replace (48 + d =? 45) with false by lia.
  change (48 + d :: map (Z.add 48) ds ++ tl) with (map (Z.add 48) (d :: ds) ++ tl).
  rewrite <- (map_length (Z.add 48) (d :: ds)).
  apply atoi_loop_spec; [lia|lia|exact Hd|exact Hf|exact Hlt].
Qed.

(** str_number on the text of digits, possibly signed *)
Lemma str_number_digits_gen ds sg : Forall (fun d => 0 <= d < 10) ds -> ds <> [] -> sg = [] \/ sg = [45] \/ sg = [43] ->
  str_number (sg ++ map (Z.add 48) ds) =
  if Nat.ltb (length ds) 10
  then Ok (TInt (PN_NUM (if match sg with c :: _ => c =? 45 | [] => false end then - positional 10 ds 0 else positional 10 ds 0))) else Ok TDouble.
Proof.
  intros Hf Hne SG. destruct (digit_chars ds Hf) as [Hd Hs].
  pose proof (digit_chars_range ds Hf) as Hr.
  pose proof (positional_bound 10 ds ltac:(lia) Hf) as Hb.
  assert (E : forall g : Z, (g = 1 \/ g = -1) ->
    (if (Nat.ltb (span_digits (map (Z.add 48) ds)) 10) &&
        (Nat.eqb (span_digits (map (Z.add 48) ds)) (length (map (Z.add 48) ds)))
      then do a <- PN_ATOI (map (Z.add 48) ds ++ [0]) (span_digits (map (Z.add 48) ds)) 10;
           do r <- slong (g * a); Ok (TInt (PN_NUM r))
      else Ok TDouble) =
    if Nat.ltb (length ds) 10 then Ok (TInt (PN_NUM (g * positional 10 ds 0))) else Ok TDouble).
  { intros g Hg. rewrite Hs, map_length, Nat.eqb_refl, andb_true_r.
    destruct (Nat.ltb_spec (length ds) 10) as [L|L]; [|reflexivity].
    assert (10 ^ Z.of_nat (length ds) <= 10 ^ 9) by (apply Z.pow_le_mono_r; lia).
    rewrite pn_atoi_digits by (try assumption; try reflexivity; unfold_consts; lia).
    cbn [bind]. rewrite slong_ok by (unfold_consts; lia). reflexivity. }
  destruct SG as [-> | [-> | ->]]; cbn [app]; unfold str_number.
  2:{ cbn [Z.eqb Pos.eqb orb]. rewrite E by (right; reflexivity).
    replace (-1 * positional 10 ds 0) with (- positional 10 ds 0) by lia. reflexivity. }
  2:{ cbn [Z.eqb Pos.eqb orb]. rewrite E by (left; reflexivity). rewrite Z.mul_1_l. reflexivity. }
  - destruct (map (Z.add 48) ds) as [|c cs] eqn:Em; [destruct ds; [congruence|discriminate]|].
    apply Forall_inv in Hr. cbn beta in Hr. replace (c =? 45) with false by lia. replace (c =? 43) with false by lia.
    cbn [orb]. cbv zeta. rewrite E by (left; reflexivity). rewrite Z.mul_1_l. reflexivity.
Qed.
Lemma str_number_digits ds sgn : Forall (fun d => 0 <= d < 10) ds -> ds <> [] ->
  str_number ((if sgn : bool then [45] else []) ++ map (Z.add 48) ds) =
  if Nat.ltb (length ds) 10
  then Ok (TInt (PN_NUM (if sgn then - positional 10 ds 0 else positional 10 ds 0))) else Ok TDouble.
Proof. intros A B. rewrite str_number_digits_gen; [destruct sgn; reflexivity|assumption|assumption|destruct sgn; auto]. Qed.

Lemma sprintf_ld_digits n : - two63 <= n < two63 -> exists ds, ds <> [] /\
  Forall (fun d => 0 <= d < 10) ds /\ positional 10 ds 0 = Z.abs n /\
  (Z.abs n < 10 ^ 9 -> (length ds <= 9)%nat) /\ (10 ^ 9 <= Z.abs n -> (10 <= length ds)%nat) /\
  sprintf_ld n = (if n <? 0 then [45] else []) ++ map (Z.add 48) ds.
Proof.
  intros Hn. unfold_consts. unfold sprintf_ld.
  assert (Hb : 0 <= Z.abs n < 10 ^ Z.of_nat 20) by (cbn; lia).
  destruct (dec_digits_spec 20 (Z.abs n) [] Hb ltac:(lia)) as (ds & Hne & Hd & Hf & Hp & Hl & Hl2).
  exists ds. rewrite app_nil_r in Hd. repeat (split; [assumption|]).
  destruct (n <? 0) eqn:E; [replace (- n) with (Z.abs n) by lia | replace n with (Z.abs n) at 1 by lia];
    rewrite Hd; reflexivity.
Qed.

Lemma str_number_ld n : - 10 ^ 9 < n < 10 ^ 9 -> str_number (sprintf_ld n) = Ok (TInt (PN_NUM n)).
Proof.
  intros Hn. destruct (sprintf_ld_digits n) as (ds & Hne & Hf & Hp & Hl & _ & ->); [unfold_consts; lia|].
  rewrite str_number_digits by assumption.
  destruct (Nat.ltb_spec (length ds) 10) as [L|L]; [|assert (length ds <= 9)%nat by (apply Hl; lia); lia].
  rewrite Hp. do 3 f_equal. destruct (n <? 0) eqn:E; lia.
Qed.

Lemma str_number_ld_big n : - two62 <= n < two62 -> (n <= - 10 ^ 9 \/ 10 ^ 9 <= n) ->
  str_number (sprintf_ld n) = Ok TDouble.
Proof.
  intros Hr Hn. destruct (sprintf_ld_digits n) as (ds & Hne & Hf & Hp & _ & Hl & ->); [unfold_consts; lia|].
  rewrite str_number_digits by assumption.
  destruct (Nat.ltb_spec (length ds) 10) as [L|L]; [|reflexivity].
  assert (10 <= length ds)%nat by (apply Hl; lia). lia.
Qed.

Lemma lit_dec_ld n : - two63 < n < two63 -> lit_dec (sprintf_ld n) = Ok (PN_NUM n).
Proof.
  intros Hn. destruct (sprintf_ld_digits n) as (ds & Hne & Hf & Hp & _ & _ & ->); [unfold_consts; lia|].
  unfold lit_dec. rewrite <- app_assoc, app_length, map_length.
  destruct (n <? 0) eqn:E; cbn [app length plus].
  - unfold PN_ATOI. cbn [Z.eqb Pos.eqb].
    destruct (digit_chars ds Hf) as [Hd _].
    rewrite <- (map_length (Z.add 48) ds).
    rewrite (atoi_loop_spec 10 _ ds) by (try assumption; try lia; rewrite Hp; unfold_consts; lia).
    cbn [bind]. rewrite Hp, slong_ok by (unfold_consts; lia). cbn [bind]. do 2 f_equal. lia.
  - rewrite pn_atoi_digits by (try assumption; try reflexivity; rewrite Hp; unfold_consts; lia).
    cbn [bind]. rewrite Hp. do 2 f_equal. lia.
Qed.
