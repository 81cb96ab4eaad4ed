(** Property C81: the concatenation of strings with +. *)
From Coq Require Import ZifyBool.
From Verif Require Import Base Arr GArr KhashModel KhashProofs InternModel ConcatModel PropIntern.
Ltac Zify.zify_post_hook ::= Z.div_mod_to_equations.

(** ** Specification *)
(** a sound state of the interpreter with room for [n] more strings, in which [p] is the string [s] *)
Definition sound (P : pstate) (n : Z) : Prop := winv P /\ n_occupied (strs P) + n <= limit /\ forall p b, objs P p = Some b -> p < next P.
Definition is (P : pstate) (p : Z) (s : bytes) : Prop := objs P p = Some s.
(** the strings entered into the set have no NUL in them *)
Definition plain (P : pstate) : Prop := exactly P.
(** P' has all the objects of P *)
Definition keeps (P P' : pstate) : Prop := forall p s, is P p s -> is P' p s.

Lemma keeps_trans P Q R : keeps P Q -> keeps Q R -> keeps P R.
Proof. unfold keeps. auto. Qed.
Lemma cstr_nul b : ~ In 0 (cstr b).
Proof. induction b as [|c b IH]; [intros []|]. cbn. destruct (c =? 0) eqn:E; [intros []|]. intros [->|I]; [discriminate|auto]. Qed.
Lemma made_objs P P' m p : made P P' m p -> sound P 1 -> is P' p (content m) \/ exists b, is P p b /\ cstr b = cstr (content m).
Proof.
  intros (W' & I & K & _ & B & OO & _) (W & _ & _). destruct (B _ _ I) as [I0|(_ & Q & _)]; [|left; exact Q].
  right. destruct (w_obj _ W _ _ _ I0) as ((b & A & C) & _). exists b. auto.
Qed.
Lemma str2_objs junk P s P' p : potion_str2 junk P s = Ok (P', p) -> objs P' = fun q => if q =? next P then Some s else objs P q.
Proof.
  unfold potion_str2, new_str. destruct (lookup_str _ _) as [v| |]; try discriminate. cbn [bind]. destruct (v =? 0).
  - unfold add_str. cbn [strs]. destruct (kh_put _ _ _ _ _) as [[[t k] r]| |]; try discriminate. cbn [bind]. intros [= <- _]. reflexivity.
  - intros [= <- _]. reflexivity.
Qed.
Lemma str2_next junk P s P' p : potion_str2 junk P s = Ok (P', p) -> next P' = next P + 16 + zlen s + 8.
Proof.
  unfold potion_str2, new_str. destruct (lookup_str _ _) as [v| |]; try discriminate. cbn [bind]. destruct (v =? 0).
  - unfold add_str. cbn [strs]. destruct (kh_put _ _ _ _ _) as [[[t k] r]| |]; try discriminate. cbn [bind]. intros [= <- _]. reflexivity.
  - intros [= <- _]. reflexivity.
Qed.
Lemma add_made junk P n a b s t : sound P n -> 1 <= n -> is P a s -> is P b t ->
  exists P' p, potion_str_add junk P a b = Ok (P', p) /\ made P P' (MStr2 (s ++ t)) p /\ sound P' (n - 1) /\ keeps P P'.
Proof.
  intros (W & L & D) Hn A B. unfold potion_str_add. unfold is in A, B. rewrite A, B.
  destruct (make_ok junk P (MStr2 (s ++ t)) W ltac:(lia) Logic.I) as (P' & p & E & M). cbn [make] in E. exists P', p.
  split; [exact E|]. split; [exact M|]. pose proof (str2_objs _ _ _ _ _ E) as O. pose proof (str2_next _ _ _ _ _ E) as Nx. pose proof (zlen_nonneg (s ++ t)).
  destruct M as (W' & _ & _ & Oc & _ & OO & _). split.
  - split; [exact W'|]. split; [lia|]. intros q c Q. rewrite O in Q. destruct (q =? next P) eqn:Eq; [lia|]. apply D in Q. lia.
  - intros q c Q. unfold is in *. rewrite OO; [exact Q|]. eapply D. exact Q.
Qed.

(** a + b never fails; the result is a string whose characters up to the first NUL are those of
    a followed by those of b, the one string there is for them; no string changes. *)
Theorem C81_concat : forall junk P n a b s t, sound P n -> 1 <= n -> is P a s -> is P b t ->
  exists P' p u, potion_str_add junk P a b = Ok (P', p) /\ sound P' (n - 1) /\ keeps P P' /\
    is P' p u /\ cstr u = cstr (s ++ t) /\ interned P' (cstr (s ++ t)) p /\
    forall q, interned P' (cstr (s ++ t)) q -> q = p.
Proof.
  intros junk P n a b s t Sd Hn A B. destruct (add_made junk P n a b s t Sd Hn A B) as (P' & p & E & M & Sd' & K).
  pose proof M as (W' & I & _). destruct (w_obj _ W' _ _ _ I) as ((u & Ou & Cu) & _). exists P', p, u.
  split; [exact E|]. split; [exact Sd'|]. split; [exact K|]. split; [exact Ou|]. split; [exact Cu|]. split; [exact I|].
  intros q Iq. eapply interned_fun; eassumption.
Qed.
(** Without NULs the result is exactly the characters of a followed by those of b. *)
Theorem C81_exact : forall junk P n a b s t, sound P n -> 1 <= n -> plain P -> is P a s -> is P b t -> ~ In 0 (s ++ t) ->
  exists P' p, potion_str_add junk P a b = Ok (P', p) /\ sound P' (n - 1) /\ keeps P P' /\ plain P' /\
    is P' p (s ++ t) /\ interned P' (s ++ t) p.
Proof.
  intros junk P n a b s t Sd Hn X A B N. destruct (add_made junk P n a b s t Sd Hn A B) as (P' & p & E & M & Sd' & K).
  exists P', p. destruct M as (W' & I & _ & _ & Bk & OO & _). cbn [content] in *. rewrite (cstr_id _ N) in *.
  assert (X' : plain P').
  { intros c q M. destruct (Bk c q M) as [M'|(-> & Q & _)]; [|exact Q]. apply K. apply X, M'. }
  split; [exact E|]. split; [exact Sd'|]. split; [exact K|]. split; [exact X'|]. split; [apply X', I|exact I].
Qed.
(** (a + b) + c and a + (b + c) are the same object. *)
Theorem C81_associative : forall j1 j2 j3 j4 P n a b c s t u, sound P n -> 4 <= n -> plain P -> is P a s -> is P b t -> is P c u -> ~ In 0 (s ++ t ++ u) ->
  exists P1 ab P2 r1 P3 bc P4 r2,
    potion_str_add j1 P a b = Ok (P1, ab) /\ potion_str_add j2 P1 ab c = Ok (P2, r1) /\
    potion_str_add j3 P2 b c = Ok (P3, bc) /\ potion_str_add j4 P3 a bc = Ok (P4, r2) /\ r1 = r2 /\ is P4 r2 (s ++ t ++ u).
Proof.
  intros j1 j2 j3 j4 P n a b c s t u Sd Hn X A B C N. rewrite !in_app_iff in N.
  destruct (C81_exact j1 P n a b s t Sd ltac:(lia) X A B) as (P1 & ab & E1 & S1 & K1 & X1 & O1 & _); [rewrite in_app_iff; tauto|].
  destruct (C81_exact j2 P1 (n - 1) ab c (s ++ t) u S1 ltac:(lia) X1 O1 (K1 _ _ C)) as (P2 & r1 & E2 & S2 & K2 & X2 & O2 & I2); [rewrite !in_app_iff; tauto|].
  destruct (C81_exact j3 P2 (n - 1 - 1) b c t u S2 ltac:(lia) X2 (K2 _ _ (K1 _ _ B)) (K2 _ _ (K1 _ _ C))) as (P3 & bc & E3 & S3 & K3 & X3 & O3 & _); [rewrite in_app_iff; tauto|].
  destruct (add_made j3 P2 (n - 1 - 1) b c t u S2 ltac:(lia) (K2 _ _ (K1 _ _ B)) (K2 _ _ (K1 _ _ C))) as (P3' & bc' & E3' & (_ & _ & KI3 & _) & _).
  rewrite E3 in E3'. injection E3' as <- <-.
  pose proof (K3 _ _ (K2 _ _ (K1 _ _ A))) as A3.
  destruct (C81_exact j4 P3 (n - 1 - 1 - 1) a bc s (t ++ u) S3 ltac:(lia) X3 A3 O3) as (P4 & r2 & E4 & S4 & K4 & X4 & O4 & I4); [rewrite !in_app_iff; tauto|].
  destruct (add_made j4 P3 (n - 1 - 1 - 1) a bc s (t ++ u) S3 ltac:(lia) A3 O3) as (P4' & r' & E4' & (W4 & _ & KI4 & _) & _).
  rewrite E4 in E4'. injection E4' as <- <-.
  exists P1, ab, P2, r1, P3, bc, P4, r2. split; [exact E1|]. split; [exact E2|]. split; [exact E3|]. split; [exact E4|]. split; [|exact O4].
  eapply interned_fun; [exact W4| |exact I4]. apply KI4, KI3. rewrite app_assoc. exact I2.
Qed.
(** Adding the empty string on either side gives the string itself, if it is the interned one. *)
Theorem C81_empty : forall junk P n a e s, sound P n -> 1 <= n -> is P a s -> is P e [] -> ~ In 0 s -> interned P s a ->
  (exists P', potion_str_add junk P a e = Ok (P', a)) /\ (exists P', potion_str_add junk P e a = Ok (P', a)).
Proof.
  intros junk P n a e s Sd Hn A E N I. split.
  - destruct (add_made junk P n a e s [] Sd Hn A E) as (P' & p & Q & (W' & I' & K & _) & _). cbn [content] in I'. rewrite app_nil_r, (cstr_id _ N) in I'.
    exists P'. rewrite Q. f_equal. f_equal. eapply interned_fun; [exact W'|exact I'|]. apply K, I.
  - destruct (add_made junk P n e a [] s Sd Hn E A) as (P' & p & Q & (W' & I' & K & _) & _). cbn [content app] in I'. rewrite (cstr_id _ N) in I'.
    exists P'. rewrite Q. f_equal. f_equal. eapply interned_fun; [exact W'|exact I'|]. apply K, I.
Qed.
(** Two sums are the same object exactly when their characters are the same. *)
Theorem C81_same_iff : forall j1 j2 P n a b c d s t u v, sound P n -> 2 <= n -> plain P -> is P a s -> is P b t -> is P c u -> is P d v ->
  ~ In 0 (s ++ t) -> ~ In 0 (u ++ v) ->
  exists P1 p P2 q, potion_str_add j1 P a b = Ok (P1, p) /\ potion_str_add j2 P1 c d = Ok (P2, q) /\ (p = q <-> s ++ t = u ++ v).
Proof.
  intros j1 j2 P n a b c d s t u v Sd Hn X A B C D N1 N2.
  destruct (C81_exact j1 P n a b s t Sd ltac:(lia) X A B N1) as (P1 & p & E1 & S1 & K1 & X1 & O1 & I1).
  destruct (C81_exact j2 P1 (n - 1) c d u v S1 ltac:(lia) X1 (K1 _ _ C) (K1 _ _ D) N2) as (P2 & q & E2 & S2 & K2 & X2 & O2 & I2).
  destruct (add_made j2 P1 (n - 1) c d u v S1 ltac:(lia) (K1 _ _ C) (K1 _ _ D)) as (P2' & q' & E2' & (W2 & _ & KI & _) & _).
  rewrite E2 in E2'. injection E2' as <- <-.
  exists P1, p, P2, q. split; [exact E1|]. split; [exact E2|]. split.
  - intros <-. pose proof (K2 _ _ O1) as O1'. unfold is in *. congruence.
  - intros Q. rewrite Q in I1. eapply interned_fun; [exact W2| |exact I2]. apply KI, I1.
Qed.
(** ** With a NUL the sum can be an older, shorter string: "a" + "\0b" is "a" *)
Definition J (i : Z) : skey * unit := (([], 0), tt).
Theorem C81_nul_refuted : exists P a b P', winv P /\ is P a [97] /\ is P b [0; 98] /\ potion_str_add J P a b = Ok (P', a) /\ is P' a [97].
Proof.
  destruct (make_ok J initial (MStr [97]) winv_initial) as (P1 & a & E1 & M1); [reflexivity|cbn; lia|].
  destruct (make_ok J P1 (MStr2 [0; 98]) (proj1 M1)) as (P2 & b & E2 & M2); [destruct M1 as (_ & _ & _ & L & _); eapply Z.le_lt_trans; [exact L|reflexivity]|exact Logic.I|].
  pose proof (proj1 M2) as W2. clear M1 M2. cbn [make] in E1, E2. vm_compute in E1. injection E1 as <- <-. vm_compute in E2. injection E2 as <- <-.
  eexists _, 4096, 4121, _. split; [exact W2|]. split; [reflexivity|]. split; [reflexivity|]. split; [vm_compute; reflexivity|reflexivity].
Qed.
(** An operand that is not a string is not refused: the behaviour is undefined *)
Theorem C81_not_a_string : forall junk P a b, objs P a = None \/ objs P b = None -> potion_str_add junk P a b = UB.
Proof. intros junk P a b [E|E]; unfold potion_str_add; rewrite E; [|destruct (objs P a)]; reflexivity. Qed.
(** ** A state that meets the hypotheses *)
Lemma sound_made junk P n s : sound P n -> 1 <= n -> plain P -> ~ In 0 s ->
  exists P' p, potion_str2 junk P s = Ok (P', p) /\ sound P' (n - 1) /\ plain P' /\ keeps P P' /\ is P' p s.
Proof.
  intros (W & L & D) Hn X N. destruct (make_ok junk P (MStr2 s) W ltac:(lia) Logic.I) as (P' & p & E & M). cbn [make] in E. exists P', p.
  pose proof (str2_objs _ _ _ _ _ E) as O. pose proof (str2_next _ _ _ _ _ E) as Nx. pose proof (zlen_nonneg s).
  destruct M as (W' & I & _ & Oc & Bk & OO & _). cbn [content] in *. rewrite (cstr_id _ N) in *.
  assert (K : keeps P P') by (intros q c Q; unfold is in *; rewrite OO; [exact Q|eapply D; exact Q]).
  assert (X' : plain P') by (intros c q Q; destruct (Bk c q Q) as [M'|(-> & Q' & _)]; [apply K, X, M'|exact Q']).
  split; [exact E|]. split; [|split; [exact X'|split; [exact K|apply X', I]]].
  split; [exact W'|]. split; [lia|]. intros q c Q. rewrite O in Q. destruct (q =? next P) eqn:Eq; [lia|]. apply D in Q. lia.
Qed.
Example C81_case : exists P a b, sound P 4 /\ plain P /\ is P a [104; 105] /\ is P b [33].
Proof.
  assert (X0 : plain initial).
  { intros c p [i (f & A & _)]. cbn in A. unfold gnth in A. destruct (i <? 0); [discriminate|]. destruct (Z.to_nat i); discriminate. }
  assert (S0 : sound initial 6) by (split; [exact winv_initial|split; [cbn; unfold limit; lia|discriminate]]).
  destruct (sound_made J initial 6 [104; 105] S0 ltac:(lia) X0) as (P1 & a & _ & S1 & X1 & _ & A1); [cbn; lia|].
  destruct (sound_made J P1 5 [33] S1 ltac:(lia) X1) as (P2 & b & _ & S2 & X2 & K2 & B2); [cbn; lia|].
  exists P2, a, b. split; [exact S2|]. split; [exact X2|]. split; [apply K2, A1|exact B2].
Qed.
Print Assumptions C81_associative.
