(** More fuel does not change what potion_vm returns. *)
From Verif Require Import Base Arr GArr WordModel NumModel AsmModel SigModel CompileModel VmModel.

Section Mono.
Context {W : Type} (H : host W) (tbl : list pb) (is_str : Z -> bool) (STR0 : Z).
Definition le_res {A} (x y : res A) : Prop := x = NoFuel \/ x = y.
Lemma le_refl {A} (x : res A) : le_res x x. Proof. right. reflexivity. Qed.
Lemma le_bind {A B} (x y : res A) (k k' : A -> res B) : le_res x y -> (forall a, le_res (k a) (k' a)) -> le_res (bind x k) (bind y k').
Proof. intros [-> | ->] K; [left; reflexivity|]. destruct y; cbn; [apply K|right; reflexivity|right; reflexivity]. Qed.
Section Step.
Context (n1 n2 : Z -> Z -> list Z -> list Z -> W -> (Z -> Z) -> res (W * (Z -> Z) * Z)).
Context (N : forall a b c d e f, le_res (n1 a b c d e f) (n2 a b c d e f)).
Lemma call_mono s f st w reg a b cl : le_res (call_closure H tbl is_str STR0 n1 s f st w reg a b cl) (call_closure H tbl is_str STR0 n2 s f st w reg a b cl).
Proof.
  unfold call_closure. destruct (h_kind H w cl) as [|pid sig arity minargs ups|sig arity minargs|]; try apply le_refl.
  destruct (_ <=? _); [|apply le_refl].
  apply le_bind; [apply le_refl|intros self]. apply le_bind; [apply le_refl|intros args]. apply le_bind; [apply N|].
  intros ((w1 & fs1) & v). apply le_refl.
Qed.
Lemma step_mono s : le_res (step H tbl is_str STR0 n1 s) (step H tbl is_str STR0 n2 s).
Proof.
  unfold step. apply le_bind; [apply le_refl|intros f]. destruct (negb _); [apply le_refl|]. destruct (instr_at f (v_pos s)) as [[o a b]|]; [|apply le_refl].
  destruct o; try apply le_refl.
  apply le_bind; [apply le_refl|intros callee]. destruct (h_kind H (v_w s) callee); try apply call_mono.
  - apply le_bind; [apply le_refl|intros r]. apply le_bind; [apply le_refl|intros st]. apply le_bind; [apply le_refl|intros c].
    apply le_bind; [apply le_refl|intros st2]. apply call_mono.
  - apply le_refl.
Qed.
End Step.
Lemma vrun_mono : forall n m r, (n <= m)%nat -> le_res (vrun H tbl is_str STR0 n r) (vrun H tbl is_str STR0 m r).
Proof.
  induction n as [|n IH]; intros m r L; [left; reflexivity|]. destruct m as [|m]; [lia|]. cbn [vrun]. destruct r as [[s| |]| |]; try apply le_refl.
  match goal with |- le_res (vrun _ _ _ _ n (step _ _ _ _ ?f1 s)) (vrun _ _ _ _ m (step _ _ _ _ ?f2 s)) =>
    destruct (step_mono f1 f2 (fun a b c d e f => IH m _ ltac:(lia)) s) as [Q|Q] end.
  - rewrite Q. left. destruct n; reflexivity.
  - rewrite Q. apply IH. lia.
Qed.
Lemma vm_mono n m pid self args ups w fs : (n <= m)%nat ->
  le_res (potion_vm H tbl is_str STR0 n pid self args ups w fs) (potion_vm H tbl is_str STR0 m pid self args ups w fs).
Proof. apply vrun_mono. Qed.
(** so the result is unique *)
Lemma vm_unique N pid self args ups w fs r : (forall fuel, (N <= fuel)%nat -> potion_vm H tbl is_str STR0 fuel pid self args ups w fs = Ok r) ->
  forall fuel, potion_vm H tbl is_str STR0 fuel pid self args ups w fs = NoFuel \/ potion_vm H tbl is_str STR0 fuel pid self args ups w fs = Ok r.
Proof.
  intros K fuel. destruct (vm_mono fuel (Nat.max N fuel) pid self args ups w fs ltac:(lia)) as [Q|Q]; [left; exact Q|right]. rewrite Q. apply K. lia.
Qed.
End Mono.
