(** Specification of classes: what a user thinks a class hierarchy is.
    Nothing here mentions vtables, hash tables or machine code. *)
From Verif Require Import Base.

Definition alist := list (Z * Z).
Fixpoint find_key (k : Z) (m : alist) : option Z :=
  match m with [] => None | e :: r => if fst e =? k then Some (snd e) else find_key k r end.
Definition drop_key (k : Z) (m : alist) : alist := filter (fun e => negb (fst e =? k)) m.

(** A class: its parent, its metaclass (none for a metaclass itself), its own
    methods, and its field names (None: it declares and inherits none). *)
Record sclass := mkSC { sc_parent : option Z; sc_meta : option Z; sc_methods : alist; sc_fields : option (list Z) }.
(** All classes by number, and the next free number. *)
Record sstate := mkSS { s_next : Z; s_classes : list (Z * sclass) }.
Fixpoint cfind (t : Z) (l : list (Z * sclass)) : option sclass :=
  match l with [] => None | (t', c) :: r => if t' =? t then Some c else cfind t r end.
Definition sget (S : sstate) (t : Z) : option sclass := cfind t (s_classes S).

(** The definition a message finds, starting at class [t]: its own, or else
    what its parent finds. *)
Inductive nearest (S : sstate) : Z -> Z -> option Z -> Prop :=
| near_own t k c m : sget S t = Some c -> find_key k (sc_methods c) = Some m -> nearest S t k (Some m)
| near_up t k c p r : sget S t = Some c -> find_key k (sc_methods c) = None -> sc_parent c = Some p ->
    nearest S p k r -> nearest S t k r
| near_none t k c : sget S t = Some c -> find_key k (sc_methods c) = None -> sc_parent c = None ->
    nearest S t k None.
(** [a] is [t] or one of its ancestors *)
Inductive ancestor (S : sstate) : Z -> Z -> Prop :=
| anc_self t c : sget S t = Some c -> ancestor S t t
| anc_up t c p a : sget S t = Some c -> sc_parent c = Some p -> ancestor S p a -> ancestor S t a.
(** [a] is [t] or an ancestor of [t], and no class below [a] on the way defines [k] *)
Inductive sees (S : sstate) (k : Z) : Z -> Z -> Prop :=
| sees_self t c : sget S t = Some c -> sees S k t t
| sees_up t c p a : sget S t = Some c -> find_key k (sc_methods c) = None -> sc_parent c = Some p ->
    sees S k p a -> sees S k t a.

(** Field names of a new class: its own in order, then the inherited ones it
    does not redeclare. *)
Definition memz (x : Z) (l : list Z) : bool := existsb (Z.eqb x) l.
Definition merge_fields (own inherited : option (list Z)) : option (list Z) :=
  match inherited with
  | None => own
  | Some p => let o := match own with Some o => o | None => [] end in
              Some (o ++ filter (fun x => negb (memz x o)) p)
  end.

Definition upd_class (S : sstate) (t : Z) (f : sclass -> sclass) : sstate :=
  mkSS (s_next S) (map (fun e => if fst e =? t then (fst e, f (snd e)) else e) (s_classes S)).
(** "def": class [t] answers [k] with [m] from now on *)
Definition spec_def (S : sstate) (t k m : Z) : sstate :=
  upd_class S t (fun c => mkSC (sc_parent c) (sc_meta c) ((k, m) :: drop_key k (sc_methods c)) (sc_fields c)).
(** a new class below [p], with its metaclass below [mixin] *)
Definition spec_class (mixin : Z) (S : sstate) (p : Z) (own : option (list Z)) : sstate :=
  let n := s_next S in
  mkSS (n + 2)
       ((n, mkSC (Some p) (Some (n + 1)) []
               (merge_fields own (match sget S p with Some c => sc_fields c | None => None end)))
        :: (n + 1, mkSC (Some mixin) None [] None) :: s_classes S).

(** ** Facts about the specification *)
Lemma cfind_map t t' f l : cfind t' (map (fun e : Z * sclass => if fst e =? t then (fst e, f (snd e)) else e) l) =
  match cfind t' l with Some c => Some (if t' =? t then f c else c) | None => None end.
Proof.
  induction l as [|[a c] l IH]; [reflexivity|]. cbn [map cfind fst snd].
  destruct (Z.eqb_spec a t) as [->|N]; cbn [cfind].
  - destruct (Z.eqb_spec t t') as [->|N']; [rewrite Z.eqb_refl; reflexivity|exact IH].
  - destruct (Z.eqb_spec a t') as [->|N']; [|exact IH]. destruct (Z.eqb_spec t' t); [contradiction|reflexivity].
Qed.
Lemma sget_upd S t f t' : sget (upd_class S t f) t' =
  match sget S t' with Some c => Some (if t' =? t then f c else c) | None => None end.
Proof. apply cfind_map. Qed.
Lemma find_drop_key k k' m : find_key k' (drop_key k m) = if k' =? k then None else find_key k' m.
Proof.
  induction m as [|[a b] m IH]; cbn [drop_key filter find_key fst snd]; [destruct (k' =? k); reflexivity|].
  destruct (Z.eqb_spec a k) as [->|N]; cbn [negb].
  - fold (drop_key k m). rewrite IH. destruct (Z.eqb_spec k' k) as [->|N']; [reflexivity|].
    destruct (Z.eqb_spec k k'); [congruence|reflexivity].
  - cbn [find_key fst snd]. fold (drop_key k m). rewrite IH.
    destruct (Z.eqb_spec a k') as [->|N']; [|reflexivity]. destruct (Z.eqb_spec k' k); [contradiction|reflexivity].
Qed.
Lemma nearest_fun S t k r : nearest S t k r -> forall r', nearest S t k r' -> r = r'.
Proof.
  induction 1 as [t k c m E F|t k c p r E F P N IH|t k c E F P]; intros r' N'; inversion N'; subst; try congruence.
  apply IH. congruence.
Qed.
