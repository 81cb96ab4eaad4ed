(** Polymorphic arrays with partial reads.  Nothing here is specific to potion. *)
From Coq Require Import ZifyBool Permutation.
From Verif Require Import Base Arr.

Definition gnth {A} (l : list A) (i : Z) : option A :=
  if i <? 0 then None else nth_error l (Z.to_nat i).
Definition gupd {A} (l : list A) (i : Z) (x : A) : list A :=
  if (0 <=? i) && (i <? zlen l) then firstn (Z.to_nat i) l ++ x :: skipn (S (Z.to_nat i)) l else l.
(** C reads and writes: undefined outside the array *)
Definition grd {A} (l : list A) (i : Z) : res A :=
  match gnth l i with Some x => Ok x | None => UB end.
Definition gwr {A} (l : list A) (i : Z) (x : A) : res (list A) :=
  if (0 <=? i) && (i <? zlen l) then Ok (gupd l i x) else UB.

Definition b2z (b : bool) : Z := if b then 1 else 0.
Fixpoint count {A} (p : A -> bool) (l : list A) : Z :=
  match l with [] => 0 | x :: r => b2z (p x) + count p r end.

Section S.
Context {A : Type}.
Implicit Types (l : list A) (x : A).
Lemma gnth_Some l i x : gnth l i = Some x -> 0 <= i < zlen l.
Proof.
  unfold gnth, zlen. destruct (Z.ltb_spec i 0); [discriminate|]. intros E.
  assert (nth_error l (Z.to_nat i) <> None) by congruence. apply nth_error_Some in H0. lia.
Qed.
Lemma gnth_in l i : 0 <= i < zlen l -> exists x, gnth l i = Some x.
Proof.
  intros H. unfold gnth, zlen in *. destruct (Z.ltb_spec i 0); [lia|].
  destruct (nth_error l (Z.to_nat i)) eqn:E; [eauto|]. apply nth_error_None in E. lia.
Qed.
Lemma gnth_None l i : ~ (0 <= i < zlen l) -> gnth l i = None.
Proof.
  intros H. destruct (gnth l i) eqn:E; [|reflexivity]. apply gnth_Some in E. lia.
Qed.
Lemma zlen_gupd l i x : zlen (gupd l i x) = zlen l.
Proof.
  unfold gupd. destruct ((0 <=? i) && (i <? zlen l)) eqn:E; [|reflexivity].
  unfold zlen in *. rewrite app_length. cbn [length]. rewrite firstn_length, skipn_length. lia.
Qed.
Lemma nth_error_firstn n l k : (k < n)%nat -> nth_error (firstn n l) k = nth_error l k.
Proof.
  revert l k. induction n as [|n IH]; intros l k H; [lia|].
  destruct l as [|y l]; [destruct k; reflexivity|]. destruct k; [reflexivity|]. cbn. apply IH. lia.
Qed.
Lemma nth_error_skipn n l k : nth_error (skipn n l) k = nth_error l (n + k).
Proof.
  revert l. induction n as [|n IH]; intros l; [reflexivity|].
  destruct l as [|y l]; [destruct k; reflexivity|]. cbn. apply IH.
Qed.
Lemma gnth_gupd_same l i x : 0 <= i < zlen l -> gnth (gupd l i x) i = Some x.
Proof.
  intros H. unfold gnth, gupd, zlen in *. destruct (Z.ltb_spec i 0); [lia|].
  replace ((0 <=? i) && (i <? Z.of_nat (length l))) with true by lia.
  rewrite nth_error_app2; rewrite firstn_length; [|lia].
  replace (Z.to_nat i - Nat.min (Z.to_nat i) (length l))%nat with O by lia. reflexivity.
Qed.
Lemma gnth_gupd_other l i j x : i <> j -> gnth (gupd l i x) j = gnth l j.
Proof.
  intros N. unfold gupd. destruct ((0 <=? i) && (i <? zlen l)) eqn:E; [|reflexivity].
  unfold gnth, zlen in *. destruct (Z.ltb_spec j 0); [reflexivity|].
  destruct (Z_lt_le_dec j i) as [L|L].
  - rewrite nth_error_app1 by (rewrite firstn_length; lia). apply nth_error_firstn. lia.
  - rewrite nth_error_app2; rewrite firstn_length; [|lia].
    replace (Z.to_nat j - Nat.min (Z.to_nat i) (length l))%nat with (S (Z.to_nat j - Z.to_nat i - 1)) by lia.
    cbn [nth_error]. rewrite nth_error_skipn. f_equal. lia.
Qed.
Lemma gnth_gupd l i j x : 0 <= i < zlen l ->
  gnth (gupd l i x) j = if i =? j then Some x else gnth l j.
Proof.
  intros H. destruct (Z.eqb_spec i j) as [->|N]; [apply gnth_gupd_same|apply gnth_gupd_other]; assumption.
Qed.
Lemma grd_Some l i x : gnth l i = Some x -> grd l i = Ok x.
Proof. unfold grd. intros ->. reflexivity. Qed.
Lemma gwr_ok l i x : 0 <= i < zlen l -> gwr l i x = Ok (gupd l i x).
Proof. intros H. unfold gwr. replace ((0 <=? i) && (i <? zlen l)) with true by lia. reflexivity. Qed.
Lemma gnth_app1 l l' i : i < zlen l -> gnth (l ++ l') i = gnth l i.
Proof.
  unfold gnth, zlen. intros H. destruct (Z.ltb_spec i 0); [reflexivity|]. apply nth_error_app1. lia.
Qed.
Lemma gnth_app2 l l' i : zlen l <= i -> gnth (l ++ l') i = gnth l' (i - zlen l).
Proof.
  unfold gnth, zlen. intros H. destruct (Z.ltb_spec i 0); [lia|].
  destruct (Z.ltb_spec (i - Z.of_nat (length l)) 0); [lia|]. rewrite nth_error_app2 by lia. f_equal. lia.
Qed.
Lemma gnth_ext l l' : (forall i, gnth l i = gnth l' i) -> l = l'.
Proof.
  revert l'. induction l as [|x l IH]; intros l' H.
  - destruct l' as [|y l']; [reflexivity|]. specialize (H 0). discriminate.
  - destruct l' as [|y l']; [specialize (H 0); discriminate|].
    pose proof (H 0) as H0. unfold gnth in H0. cbn in H0. injection H0 as ->. f_equal. apply IH.
    intros i. destruct (Z_lt_le_dec i 0).
    + rewrite !gnth_None by lia. reflexivity.
    + specialize (H (i + 1)). unfold gnth in *.
      destruct (Z.ltb_spec (i + 1) 0); [lia|]. destruct (Z.ltb_spec i 0); [lia|].
      replace (Z.to_nat (i + 1)) with (S (Z.to_nat i)) in H by lia. exact H.
Qed.
Lemma gnth_repeat x n i : 0 <= i < Z.of_nat n -> gnth (repeat x n) i = Some x.
Proof.
  intros H. unfold gnth. destruct (Z.ltb_spec i 0); [lia|].
  apply nth_error_repeat. lia.
Qed.
Lemma In_gnth l x : In x l <-> exists i, gnth l i = Some x.
Proof.
  split.
  - intros H. apply In_nth_error in H. destruct H as [n E]. exists (Z.of_nat n). unfold gnth.
    destruct (Z.ltb_spec (Z.of_nat n) 0); [lia|]. rewrite Nat2Z.id. exact E.
  - intros [i E]. unfold gnth in E. destruct (i <? 0); [discriminate|]. eapply nth_error_In. exact E.
Qed.

Lemma count_nonneg (p : A -> bool) l : 0 <= count p l.
Proof. induction l as [|x l IH]; cbn; [lia|]. unfold b2z. destruct (p x); lia. Qed.
Lemma count_le (p : A -> bool) l : count p l <= zlen l.
Proof. induction l as [|x l IH]; cbn; [unfold zlen; lia|]. rewrite zlen_cons. unfold b2z. destruct (p x); lia. Qed.
Lemma count_app (p : A -> bool) l l' : count p (l ++ l') = count p l + count p l'.
Proof. induction l as [|x l IH]; cbn [app count]; [lia|]. rewrite IH. lia. Qed.
Lemma count_filter (p : A -> bool) l : count p l = zlen (filter p l).
Proof. induction l as [|x l IH]; cbn; [reflexivity|]. destruct (p x); cbn; rewrite ?zlen_cons; unfold b2z; lia. Qed.
Lemma split_gnth l i x : gnth l i = Some x ->
  l = firstn (Z.to_nat i) l ++ x :: skipn (S (Z.to_nat i)) l.
Proof.
  intros H. pose proof (gnth_Some _ _ _ H) as R. apply gnth_ext. intros j.
  pose proof (gnth_gupd l i j x R) as G. unfold gupd in G.
  replace ((0 <=? i) && (i <? zlen l)) with true in G by lia. rewrite G.
  destruct (Z.eqb_spec i j); [subst; exact H|reflexivity].
Qed.
Lemma count_gupd (p : A -> bool) l i x y : gnth l i = Some y ->
  count p (gupd l i x) = count p l - b2z (p y) + b2z (p x).
Proof.
  intros H. pose proof (gnth_Some _ _ _ H) as R. pose proof (split_gnth _ _ _ H) as E.
  unfold gupd. replace ((0 <=? i) && (i <? zlen l)) with true by lia.
  rewrite E at 3. rewrite !count_app. cbn. lia.
Qed.
Lemma count_repeat (p : A -> bool) x n : count p (repeat x n) = b2z (p x) * Z.of_nat n.
Proof. induction n as [|n IH]; cbn; [lia|]. rewrite IH. unfold b2z. destruct (p x); lia. Qed.
Lemma count_lt_exists (p : A -> bool) l : count p l < zlen l -> exists i x, gnth l i = Some x /\ p x = false.
Proof.
  induction l as [|x l IH]; cbn; [unfold zlen; cbn; lia|]. rewrite zlen_cons. intros H.
  destruct (p x) eqn:E.
  - unfold b2z in H. destruct IH as (i & y & G & F); [lia|]. exists (i + 1), y. split; [|exact F].
    pose proof (gnth_Some _ _ _ G). unfold gnth in *. destruct (Z.ltb_spec (i + 1) 0); [lia|].
    destruct (Z.ltb_spec i 0); [lia|]. replace (Z.to_nat (i + 1)) with (S (Z.to_nat i)) by lia. exact G.
  - exists 0, x. split; [reflexivity|exact E].
Qed.
Lemma count_pos (p : A -> bool) l i x : gnth l i = Some x -> p x = true -> 1 <= count p l.
Proof.
  intros H E. rewrite (split_gnth _ _ _ H), count_app. cbn [count]. rewrite E.
  pose proof (count_nonneg p (firstn (Z.to_nat i) l)). pose proof (count_nonneg p (skipn (S (Z.to_nat i)) l)).
  unfold b2z. lia.
Qed.
Lemma count_0 (p : A -> bool) l i x : count p l = 0 -> gnth l i = Some x -> p x = false.
Proof. intros H G. destruct (p x) eqn:E; [|reflexivity]. pose proof (count_pos p l i x G E). lia. Qed.
Lemma count_le_impl (p q : A -> bool) l : (forall x, p x = true -> q x = true) -> count p l <= count q l.
Proof.
  intros H. induction l as [|x l IH]; cbn; [lia|]. specialize (H x). unfold b2z.
  destruct (p x), (q x); try lia.
Qed.
Lemma count_compl (p : A -> bool) l : count p l + count (fun x => negb (p x)) l = zlen l.
Proof. induction l as [|x l IH]; [reflexivity|]. cbn. rewrite zlen_cons. unfold b2z. destruct (p x); cbn; lia. Qed.
Lemma count_pos_ex (p : A -> bool) l : 0 < count p l -> exists i x, gnth l i = Some x /\ p x = true.
Proof.
  intros H. pose proof (count_compl p l). destruct (count_lt_exists (fun x => negb (p x)) l) as (i & x & G & F); [lia|].
  exists i, x. split; [exact G|]. destruct (p x); [reflexivity|discriminate].
Qed.
End S.
