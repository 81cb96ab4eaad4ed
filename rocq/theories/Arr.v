(** Arrays of machine words inside one allocation: bounds-checked access and a
    small theory about it.  Nothing here is specific to potion. *)
From Coq Require Import ZifyBool Permutation.
From Verif Require Import Base.

Definition zlen {A} (l : list A) : Z := Z.of_nat (length l).
(** total read (default 0), only meaningful inside the bounds *)
Definition znth (l : list Z) (i : Z) : Z := nth (Z.to_nat i) l 0.
Definition upd (l : list Z) (i v : Z) : list Z :=
  firstn (Z.to_nat i) l ++ v :: skipn (S (Z.to_nat i)) l.

(** C reads and writes of [a[i]]: undefined outside the allocation *)
Definition inb (l : list Z) (i : Z) : bool := (0 <=? i) && (i <? zlen l).
Definition rd (l : list Z) (i : Z) : res Z := if inb l i then Ok (znth l i) else UB.
Definition wr (l : list Z) (i v : Z) : res (list Z) := if inb l i then Ok (upd l i v) else UB.

(** sublist [i, i+n) *)
Definition zsub (l : list Z) (i n : Z) : list Z := firstn (Z.to_nat n) (skipn (Z.to_nat i) l).
Definition ztake (n : Z) (l : list Z) : list Z := firstn (Z.to_nat n) l.
Definition zdrop (n : Z) (l : list Z) : list Z := skipn (Z.to_nat n) l.

Lemma zlen_nonneg {A} (l : list A) : 0 <= zlen l.
Proof. unfold zlen. lia. Qed.
Lemma zlen_nil {A} : zlen (@nil A) = 0. Proof. reflexivity. Qed.
Lemma zlen_cons {A} (x : A) l : zlen (x :: l) = 1 + zlen l.
Proof. unfold zlen. cbn [length]. lia. Qed.
Lemma zlen_app {A} (l1 l2 : list A) : zlen (l1 ++ l2) = zlen l1 + zlen l2.
Proof. unfold zlen. rewrite app_length. lia. Qed.
Lemma zlen_ztake n l : 0 <= n <= zlen l -> zlen (ztake n l) = n.
Proof. unfold zlen, ztake. intros. rewrite firstn_length. lia. Qed.
Lemma zlen_zdrop n l : 0 <= n <= zlen l -> zlen (zdrop n l) = zlen l - n.
Proof. unfold zlen, zdrop. intros. rewrite skipn_length. lia. Qed.
Lemma zlen_zsub l i n : 0 <= i -> 0 <= n -> i + n <= zlen l -> zlen (zsub l i n) = n.
Proof. unfold zlen, zsub. intros. rewrite firstn_length, skipn_length. lia. Qed.
Lemma zlen_upd l i v : 0 <= i < zlen l -> zlen (upd l i v) = zlen l.
Proof. unfold zlen, upd. intros H. rewrite app_length. cbn [length]. rewrite firstn_length, skipn_length. lia. Qed.
Lemma zlen_map {A B} (f : A -> B) l : zlen (map f l) = zlen l.
Proof. unfold zlen. rewrite map_length. reflexivity. Qed.
Lemma zlen_rev {A} (l : list A) : zlen (rev l) = zlen l.
Proof. unfold zlen. rewrite rev_length. reflexivity. Qed.
Lemma zlen_perm {A} (l l' : list A) : Permutation l l' -> zlen l = zlen l'.
Proof. unfold zlen. intros H. rewrite (Permutation_length H). reflexivity. Qed.
Lemma zlen_0 {A} (l : list A) : zlen l = 0 -> l = [].
Proof. destruct l; [reflexivity|rewrite zlen_cons; pose proof (zlen_nonneg l); lia]. Qed.

Lemma inb_true l i : inb l i = true <-> 0 <= i < zlen l.
Proof. unfold inb. lia. Qed.
Lemma inb_false l i : inb l i = false <-> ~ (0 <= i < zlen l).
Proof. unfold inb. lia. Qed.
Lemma rd_ok l i : 0 <= i < zlen l -> rd l i = Ok (znth l i).
Proof. intros H. unfold rd. rewrite (proj2 (inb_true l i) H). reflexivity. Qed.
Lemma wr_ok l i v : 0 <= i < zlen l -> wr l i v = Ok (upd l i v).
Proof. intros H. unfold wr. rewrite (proj2 (inb_true l i) H). reflexivity. Qed.
Lemma rd_ub l i : ~ (0 <= i < zlen l) -> rd l i = UB.
Proof. intros H. unfold rd. rewrite (proj2 (inb_false l i) H). reflexivity. Qed.
Lemma wr_ub l i v : ~ (0 <= i < zlen l) -> wr l i v = UB.
Proof. intros H. unfold wr. rewrite (proj2 (inb_false l i) H). reflexivity. Qed.

Lemma nth_firstn {A} (l : list A) n i d : (i < n)%nat -> nth i (firstn n l) d = nth i l d.
Proof.
  revert l i. induction n as [|n IH]; intros l i H; [lia|].
  destruct l as [|x l]; [destruct i; reflexivity|].
  destruct i; [reflexivity|]. cbn. apply IH. lia.
Qed.
Lemma nth_skipn {A} (l : list A) n i d : nth i (skipn n l) d = nth (n + i) l d.
Proof.
  revert l. induction n as [|n IH]; intros l; [reflexivity|].
  destruct l as [|x l]; [destruct i; reflexivity|]. cbn. apply IH.
Qed.
Lemma znth_ztake l n i : 0 <= i < n -> znth (ztake n l) i = znth l i.
Proof. intros. unfold znth, ztake. apply nth_firstn. lia. Qed.
Lemma znth_zdrop l n i : 0 <= n -> 0 <= i -> znth (zdrop n l) i = znth l (n + i).
Proof. intros. unfold znth, zdrop. rewrite nth_skipn. f_equal. lia. Qed.
Lemma znth_zsub l k n i : 0 <= k -> 0 <= i < n -> znth (zsub l k n) i = znth l (k + i).
Proof. intros. unfold znth, zsub. rewrite nth_firstn by lia. rewrite nth_skipn. f_equal. lia. Qed.
Lemma znth_app1 l1 l2 i : 0 <= i < zlen l1 -> znth (l1 ++ l2) i = znth l1 i.
Proof. intros. unfold znth, zlen in *. apply app_nth1. lia. Qed.
Lemma znth_app2 l1 l2 i : zlen l1 <= i -> znth (l1 ++ l2) i = znth l2 (i - zlen l1).
Proof. intros. unfold znth, zlen in *. rewrite app_nth2 by lia. f_equal. lia. Qed.
Lemma znth_cons0 x l : znth (x :: l) 0 = x. Proof. reflexivity. Qed.
Lemma znth_consS x l i : 0 < i -> znth (x :: l) i = znth l (i - 1).
Proof.
  intros. unfold znth. replace (Z.to_nat i) with (S (Z.to_nat (i - 1))) by lia. reflexivity.
Qed.
Lemma znth_over l i : zlen l <= i -> znth l i = 0.
Proof. intros H. unfold znth, zlen in *. apply nth_overflow. lia. Qed.
Lemma znth_upd_same l i v : 0 <= i < zlen l -> znth (upd l i v) i = v.
Proof.
  intros H. unfold znth, upd, zlen in *.
  rewrite app_nth2; rewrite firstn_length; [|lia].
  replace (Z.to_nat i - Nat.min (Z.to_nat i) (length l))%nat with O by lia. reflexivity.
Qed.
Lemma znth_upd_other l i j v : 0 <= i < zlen l -> 0 <= j -> i <> j -> znth (upd l i v) j = znth l j.
Proof.
  intros H Hj Hn. unfold znth, upd, zlen in *.
  destruct (Z_lt_le_dec j i) as [L|L].
  - rewrite app_nth1; [|rewrite firstn_length; lia]. apply nth_firstn. lia.
  - rewrite app_nth2; rewrite firstn_length; [|lia].
    replace (Z.to_nat j - Nat.min (Z.to_nat i) (length l))%nat with (S (Z.to_nat j - Z.to_nat i - 1)) by lia.
    cbn [nth]. rewrite nth_skipn. f_equal. lia.
Qed.
Lemma znth_upd l i j v : 0 <= i < zlen l -> 0 <= j ->
  znth (upd l i v) j = if i =? j then v else znth l j.
Proof.
  intros H Hj. destruct (Z.eqb_spec i j) as [->|N]; [apply znth_upd_same; lia|apply znth_upd_other; lia].
Qed.

Lemma znth_ext l l' : zlen l = zlen l' -> (forall i, 0 <= i < zlen l -> znth l i = znth l' i) -> l = l'.
Proof.
  intros HL H. apply (nth_ext _ _ 0 0); [unfold zlen in HL; lia|].
  intros n Hn. specialize (H (Z.of_nat n)). unfold znth, zlen in H. rewrite Nat2Z.id in H. apply H. lia.
Qed.
Lemma znth_In l i : 0 <= i < zlen l -> In (znth l i) l.
Proof. intros. unfold znth, zlen in *. apply nth_In. lia. Qed.
Lemma In_znth l v : In v l -> exists i, 0 <= i < zlen l /\ znth l i = v.
Proof.
  intros H. apply (In_nth _ _ 0) in H. destruct H as [n [Hn E]].
  exists (Z.of_nat n). unfold zlen, znth. rewrite Nat2Z.id. split; [lia|exact E].
Qed.
Lemma zlen_upd_any l i v : 0 <= i < zlen l -> length (upd l i v) = length l.
Proof. intros H. pose proof (zlen_upd l i v H). unfold zlen in *. lia. Qed.
Lemma zlen_repeat (x : Z) n : zlen (repeat x n) = Z.of_nat n.
Proof. unfold zlen. rewrite repeat_length. reflexivity. Qed.

(** splitting at a position *)
Lemma ztake_zdrop n l : ztake n l ++ zdrop n l = l.
Proof. apply firstn_skipn. Qed.
Lemma split_at l i : 0 <= i < zlen l -> l = ztake i l ++ znth l i :: zdrop (i + 1) l.
Proof.
  intros H. apply znth_ext.
  - rewrite zlen_app, zlen_cons, zlen_ztake, zlen_zdrop by lia. lia.
  - intros k Hk. destruct (Z_lt_le_dec k i) as [L|L].
    + rewrite znth_app1 by (rewrite zlen_ztake; lia). rewrite znth_ztake by lia. reflexivity.
    + rewrite znth_app2 by (rewrite zlen_ztake; lia). rewrite zlen_ztake by lia.
      destruct (Z.eq_dec k i) as [->|N].
      * rewrite Z.sub_diag, znth_cons0. reflexivity.
      * rewrite znth_consS by lia. rewrite znth_zdrop by lia. f_equal. lia.
Qed.
Lemma upd_split l i v : 0 <= i < zlen l -> upd l i v = ztake i l ++ v :: zdrop (i + 1) l.
Proof. intros H. unfold upd, ztake, zdrop. do 3 f_equal. lia. Qed.

(** exchanging two positions is a permutation *)
Definition swapped (l : list Z) (a b : Z) : list Z := upd (upd l a (znth l b)) b (znth l a).
Lemma zlen_swapped l a b : 0 <= a < zlen l -> 0 <= b < zlen l -> zlen (swapped l a b) = zlen l.
Proof. intros. unfold swapped. rewrite !zlen_upd; try lia. rewrite zlen_upd; lia. Qed.
Lemma znth_swapped l a b k : 0 <= a < zlen l -> 0 <= b < zlen l -> 0 <= k ->
  znth (swapped l a b) k = if k =? b then znth l a else if k =? a then znth l b else znth l k.
Proof.
  intros. unfold swapped. rewrite znth_upd by (rewrite ?zlen_upd; lia).
  rewrite (Z.eqb_sym k b). destruct (b =? k); [reflexivity|].
  rewrite znth_upd by lia. rewrite (Z.eqb_sym k a). reflexivity.
Qed.
Lemma swapped_same l a : 0 <= a < zlen l -> swapped l a a = l.
Proof.
  intros H. apply znth_ext; [apply zlen_swapped; assumption|].
  intros i Hi. rewrite zlen_swapped in Hi by assumption. rewrite znth_swapped by lia.
  destruct (Z.eqb_spec i a) as [->|]; reflexivity.
Qed.
Lemma swapped_sym l a b : 0 <= a < zlen l -> 0 <= b < zlen l -> swapped l a b = swapped l b a.
Proof.
  intros. apply znth_ext; [rewrite !zlen_swapped by lia; reflexivity|].
  intros i Hi. rewrite zlen_swapped in Hi by lia. rewrite !znth_swapped by lia.
  destruct (Z.eqb_spec i a), (Z.eqb_spec i b); subst; reflexivity.
Qed.
Lemma upd_perm_cons l i v : 0 <= i < zlen l -> Permutation (znth l i :: upd l i v) (v :: l).
Proof.
  intros H. rewrite upd_split by assumption. rewrite (split_at l i H) at 4.
  set (t := ztake i l). set (d := zdrop (i + 1) l). set (x := znth l i).
  transitivity (x :: v :: t ++ d).
  - constructor. symmetry. apply Permutation_middle.
  - transitivity (v :: x :: t ++ d); [constructor|].
    constructor. apply Permutation_middle.
Qed.
Lemma swapped_perm l a b : 0 <= a < zlen l -> 0 <= b < zlen l -> Permutation (swapped l a b) l.
Proof.
  intros Ha Hb. destruct (Z.eq_dec a b) as [->|N]; [rewrite swapped_same by assumption; reflexivity|].
  unfold swapped.
  pose proof (upd_perm_cons l a (znth l b) Ha) as P1.
  assert (Hb' : 0 <= b < zlen (upd l a (znth l b))) by (rewrite zlen_upd; lia).
  pose proof (upd_perm_cons (upd l a (znth l b)) b (znth l a) Hb') as P2.
  rewrite znth_upd_other in P2 by lia.
  rewrite P1 in P2. apply Permutation_cons_inv in P2. exact P2.
Qed.
Lemma skipn_plus {A} (x y : nat) (l : list A) : skipn x (skipn y l) = skipn (y + x) l.
Proof.
  revert l. induction y as [|y IH]; intros l; [reflexivity|].
  destruct l as [|a l]; [cbn; destruct x; reflexivity|]. cbn. apply IH.
Qed.
