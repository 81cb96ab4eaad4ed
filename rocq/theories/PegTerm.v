(** The generated parsers: fuel, progress, and termination for grammars without
    left recursion and without repetitions of possibly empty phrases. *)
From Verif Require Import Base PegModel.
From Coq Require Import Arith.PeanoNat.

Section Peg.
  Context {R A : Type} (rules : R -> pe R A) (nvars : R -> Z).
  Notation run := (run rules nvars).

  Lemma run_S : forall n e s be o, run n e s be = Some o -> run (S n) e s be = Some o.
  Proof.
    induction n as [|n IH]; intros e s be o H; [discriminate H|].
    destruct e.
    1-4, 13-15: exact H.
    - remember (S n) as n1. cbn [PegModel.run] in H |- *. subst n1. cbn [PegModel.run] in H.
      destruct (run n e1 s be) as [[s1 be1 t1|be1]|] eqn:E1; try discriminate.
      + rewrite (IH _ _ _ _ E1).
        destruct (run n e2 s1 be1) as [x|] eqn:E2; try discriminate.
        rewrite (IH _ _ _ _ E2). exact H.
      + rewrite (IH _ _ _ _ E1). exact H.
    - remember (S n) as n1. cbn [PegModel.run] in H |- *. subst n1. cbn [PegModel.run] in H.
      destruct (run n e1 s be) as [[s1 be1 t1|be1]|] eqn:E1; try discriminate.
      + rewrite (IH _ _ _ _ E1). exact H.
      + rewrite (IH _ _ _ _ E1). apply IH, H.
    - remember (S n) as n1. cbn [PegModel.run] in H |- *. subst n1. cbn [PegModel.run] in H.
      destruct (run n e s be) as [[s1 be1 t1|be1]|] eqn:E1; try discriminate.
      + rewrite (IH _ _ _ _ E1).
        destruct (run n (Star e) s1 be1) as [x|] eqn:E2; try discriminate.
        rewrite (IH _ _ _ _ E2). exact H.
      + rewrite (IH _ _ _ _ E1). exact H.
    - remember (S n) as n1. cbn [PegModel.run] in H |- *. subst n1. cbn [PegModel.run] in H. apply IH, H.
    - remember (S n) as n1. cbn [PegModel.run] in H |- *. subst n1. cbn [PegModel.run] in H.
      destruct (run n e s be) as [[s1 be1 t1|be1]|] eqn:E1; try discriminate;
        rewrite (IH _ _ _ _ E1); exact H.
    - remember (S n) as n1. cbn [PegModel.run] in H |- *. subst n1. cbn [PegModel.run] in H.
      destruct (run n e s be) as [[s1 be1 t1|be1]|] eqn:E1; try discriminate;
        rewrite (IH _ _ _ _ E1); exact H.
    - remember (S n) as n1. cbn [PegModel.run] in H |- *. subst n1. cbn [PegModel.run] in H.
      destruct (run n (rules r) s be) as [[s1 be1 t1|be1]|] eqn:E1; try discriminate;
        rewrite (IH _ _ _ _ E1); exact H.
    - remember (S n) as n1. cbn [PegModel.run] in H |- *. subst n1. cbn [PegModel.run] in H.
      destruct (run n (Rul r) s be) as [[s1 be1 t1|be1]|] eqn:E1; try discriminate;
        rewrite (IH _ _ _ _ E1); exact H.
  Qed.
  Lemma run_le : forall n m e s be o, (n <= m)%nat -> run n e s be = Some o -> run m e s be = Some o.
  Proof. intros n m e s be o L H. induction L; [exact H | apply run_S, IHL]. Qed.
  Lemma run_det : forall n m e s be o o', run n e s be = Some o -> run m e s be = Some o' -> o = o'.
  Proof.
    intros n m e s be o o' H H'.
    pose proof (run_le _ (Nat.max n m) _ _ _ _ (Nat.le_max_l _ _) H) as E.
    rewrite (run_le _ (Nat.max n m) _ _ _ _ (Nat.le_max_r _ _) H') in E. congruence.
  Qed.

  (** ** Progress *)
  (** [nr r]: may rule [r] match the empty text? *)
  Context (nr : R -> bool).
  Fixpoint nullable (e : pe R A) : bool :=
    match e with
    | Chr _ | Cls _ | Dot => false
    | Str l => match l with [] => true | _ => false end
    | Seq a b => nullable a && nullable b
    | Alt a b => nullable a || nullable b
    | Star _ | Opt _ | Nt _ | Act _ | Bg | En => true
    | Plus a => nullable a
    | Rul r | Var _ r => nr r
    end.
  Hypothesis nr_ok : forall r, nullable (rules r) = true -> nr r = true.

  Lemma match_str_len : forall l s s', match_str l s = Some s' -> (length s' + length l = length s)%nat.
  Proof.
    induction l as [|c l IH]; cbn [match_str]; intros s s' H.
    - injection H as <-. cbn. lia.
    - destruct s as [|x s]; [discriminate|]. destruct (x =? c); [|discriminate].
      apply IH in H. cbn [length]. lia.
  Qed.

  Lemma progress : forall n e s be s' be' t, run n e s be = Some (Match s' be' t) ->
    (length s' <= length s)%nat /\ (nullable e = false -> (length s' < length s)%nat).
  Proof.
    induction n as [|n IH]; intros e s be s' be' t H; [discriminate H|].
    destruct e; cbn [PegModel.run] in H; cbn [nullable].
    - destruct s as [|x s]; [discriminate|]. destruct (x =? c); [|discriminate]. injection H as <- <- <-. cbn. lia.
    - destruct (match_str l s) as [r|] eqn:E; [|discriminate]. injection H as <- <- <-.
      apply match_str_len in E. destruct l; cbn [length] in E; split; intros; try discriminate; lia.
    - destruct s as [|x s]; [discriminate|]. destruct (f x); [|discriminate]. injection H as <- <- <-. cbn. lia.
    - destruct s as [|x s]; [discriminate|]. injection H as <- <- <-. cbn. lia.
    - destruct (run n e1 s be) as [[s1 be1 t1|be1]|] eqn:E1; try discriminate.
      destruct (run n e2 s1 be1) as [[s2 be2 t2|be2]|] eqn:E2; try discriminate.
      injection H as <- <- <-. apply IH in E1. apply IH in E2. destruct E1 as [L1 N1], E2 as [L2 N2].
      split; [lia|]. intros N. apply andb_false_iff in N. destruct N as [N|N]; [apply N1 in N | apply N2 in N]; lia.
    - destruct (run n e1 s be) as [[s1 be1 t1|be1]|] eqn:E1; try discriminate.
      + injection H as <- <- <-. apply IH in E1. destruct E1 as [L N]. split; [lia|].
        intros Q. apply orb_false_iff in Q. apply N, Q.
      + apply IH in H. destruct H as [L N]. split; [lia|]. intros Q. apply orb_false_iff in Q. apply N, Q.
    - destruct (run n e s be) as [[s1 be1 t1|be1]|] eqn:E1; try discriminate.
      + destruct (run n (Star e) s1 be1) as [[s2 be2 t2|be2]|] eqn:E2; try discriminate.
        injection H as <- <- <-. apply IH in E1. apply IH in E2. split; [lia | discriminate].
      + injection H as <- <- <-. split; [lia | discriminate].
    - apply IH in H. cbn [nullable] in H. rewrite andb_true_r in H. exact H.
    - destruct (run n e s be) as [[s1 be1 t1|be1]|] eqn:E1; try discriminate.
      + injection H as <- <- <-. apply IH in E1. split; [lia | discriminate].
      + injection H as <- <- <-. split; [lia | discriminate].
    - destruct (run n e s be) as [[s1 be1 t1|be1]|] eqn:E1; try discriminate.
      injection H as <- <- <-. split; [lia | discriminate].
    - destruct (run n (rules r) s be) as [[s1 be1 t1|be1]|] eqn:E1; try discriminate.
      injection H as <- <- <-. apply IH in E1. split; [lia|]. intros N.
      apply E1. destruct (nullable (rules r)) eqn:Q; [apply nr_ok in Q; congruence | reflexivity].
    - destruct (run n (Rul r) s be) as [[s1 be1 t1|be1]|] eqn:E1; try discriminate.
      injection H as <- <- <-. apply IH in E1. exact E1.
    - injection H as <- <- <-. split; [lia | discriminate].
    - injection H as <- <- <-. split; [lia | discriminate].
    - injection H as <- <- <-. split; [lia | discriminate].
  Qed.

  (** ** Termination *)
  (** [ok k e]: before any character is consumed, only rules of rank less than [k]
      are entered; only phrases that consume something are repeated *)
  Context (rank : R -> nat) (any : nat).
  Fixpoint ok (k : nat) (e : pe R A) : bool :=
    match e with
    | Seq a b => ok k a && ok (if nullable a then k else any) b
    | Alt a b => ok k a && ok k b
    | Star a => negb (nullable a) && ok k a && ok any a
    | Plus a => negb (nullable a) && ok k a && ok any a
    | Opt a | Nt a => ok k a
    | Rul r | Var _ r => Nat.ltb (rank r) k
    | _ => true
    end.
  Hypothesis rank_ok : forall r, ok (rank r) (rules r) = true.

  Definition halts (e : pe R A) (s : list Z) : Prop := forall be, exists n o, run n e s be = Some o.

  Lemma star_halts : forall a, nullable a = false ->
    forall len, (forall s, (length s < len)%nat -> halts a s) ->
    forall s, (length s < len)%nat -> halts (Star a) s.
  Proof.
    intros a N len H s. remember (length s) as l. revert s Heql.
    induction l as [l IH] using (well_founded_induction Wf_nat.lt_wf). intros s -> L be.
    destruct (H s L be) as (n & o & E).
    destruct o as [s1 be1 t1|be1].
    - destruct (progress _ _ _ _ _ _ _ E) as [_ P]. specialize (P N).
      destruct (IH (length s1) P s1 eq_refl ltac:(lia) be1) as (m & o2 & E2).
      exists (S (Nat.max n m)). cbn [PegModel.run].
      rewrite (run_le n _ _ _ _ _ (Nat.le_max_l n m) E).
      rewrite (run_le m _ _ _ _ _ (Nat.le_max_r n m) E2).
      destruct o2; eexists; reflexivity.
    - exists (S n). cbn [PegModel.run]. rewrite E. eexists. reflexivity.
  Qed.

  Lemma seq_halts : forall a b s, halts a s ->
    (forall n be s1 be1 t, run n a s be = Some (Match s1 be1 t) -> halts b s1) -> halts (Seq a b) s.
  Proof.
    intros a b s Ha Hb be. destruct (Ha be) as (n & o & E). destruct o as [s1 be1 t1|be1].
    - destruct (Hb _ _ _ _ _ E be1) as (m & o2 & E2).
      exists (S (Nat.max n m)). cbn [PegModel.run].
      rewrite (run_le n _ _ _ _ _ (Nat.le_max_l n m) E).
      rewrite (run_le m _ _ _ _ _ (Nat.le_max_r n m) E2).
      destruct o2; eexists; reflexivity.
    - exists (S n). cbn [PegModel.run]. rewrite E. eexists. reflexivity.
  Qed.

  Lemma halts_all : forall len k e s, (length s < len)%nat -> ok k e = true -> halts e s.
  Proof.
    induction len as [|len IHl]; [intros; lia|].
    intros k. induction k as [k IHk] using (well_founded_induction Wf_nat.lt_wf).
    (* every repeated phrase halts on every shorter text *)
    assert (SH : forall e s k', (length s < len)%nat -> ok k' e = true -> halts e s)
      by (intros e s k' L O; exact (IHl k' e s L O)).
    induction e; intros s L O be; cbn [ok] in O.
    1-4, 13-15: exists 1%nat; cbn [PegModel.run].
    - destruct s as [|x s]; [|destruct (x =? c)]; eexists; reflexivity.
    - destruct (match_str l s); eexists; reflexivity.
    - destruct s as [|x s]; [|destruct (f x)]; eexists; reflexivity.
    - destruct s as [|x s]; eexists; reflexivity.
    - eexists; reflexivity.
    - eexists; reflexivity.
    - eexists; reflexivity.
    - apply andb_true_iff in O. destruct O as [O1 O2].
      apply seq_halts; [apply IHe1; assumption|].
      intros n be0 s1 be1 t E. destruct (progress _ _ _ _ _ _ _ E) as [P1 P2].
      destruct (nullable e1); [apply IHe2; [lia | exact O2]|].
      specialize (P2 eq_refl). apply (SH e2 s1 any); [lia | exact O2].
    - apply andb_true_iff in O. destruct O as [O1 O2].
      destruct (IHe1 s L O1 be) as (n & o & E). destruct o as [s1 be1 t1|be1].
      + exists (S n). cbn [PegModel.run]. rewrite E. eexists. reflexivity.
      + destruct (IHe2 s L O2 be1) as (m & o2 & E2).
        exists (S (Nat.max n m)). cbn [PegModel.run].
        rewrite (run_le n _ _ _ _ _ (Nat.le_max_l n m) E).
        rewrite (run_le m _ _ _ _ _ (Nat.le_max_r n m) E2). eexists. reflexivity.
    - apply andb_true_iff in O. destruct O as [O O3]. apply andb_true_iff in O. destruct O as [O1 O2].
      apply negb_true_iff in O1.
      apply (star_halts e O1 (S len)); [|exact L].
      intros s' L'. apply IHe; [exact L' | exact O2].
    - apply andb_true_iff in O. destruct O as [O O3]. apply andb_true_iff in O. destruct O as [O1 O2].
      apply negb_true_iff in O1.
      destruct (seq_halts e (Star e) s) with (be := be) as (n & o & E).
      + apply IHe; assumption.
      + intros n be0 s1 be1 t E. destruct (progress _ _ _ _ _ _ _ E) as [_ P].
        specialize (P O1). apply (star_halts e O1 len); [|lia].
        intros s' L'. apply (SH e s' any L' O3).
      + exists (S n), o. exact E.
    - destruct (IHe s L O be) as (n & o & E). exists (S n). cbn [PegModel.run]. rewrite E.
      destruct o; eexists; reflexivity.
    - destruct (IHe s L O be) as (n & o & E). exists (S n). cbn [PegModel.run]. rewrite E.
      destruct o; eexists; reflexivity.
    - apply Nat.ltb_lt in O. destruct (IHk (rank r) O (rules r) s L (rank_ok r) be) as (n & o & E).
      exists (S n). cbn [PegModel.run]. rewrite E. destruct o; eexists; reflexivity.
    - apply Nat.ltb_lt in O. destruct (IHk (rank r) O (rules r) s L (rank_ok r) be) as (n & o & E).
      exists (S (S n)). cbn [PegModel.run]. rewrite E. destruct o; eexists; reflexivity.
  Qed.
End Peg.
