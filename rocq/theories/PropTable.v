(** Properties C19-C23 and C25: tables. *)
From Coq Require Import ZifyBool Permutation.
From Verif Require Import Base Arr GArr WordModel WordProofs TupleModel TupleProofs KhashModel KhashProofs TableModel TableProofs.
Ltac Zify.zify_post_hook ::= Z.div_mod_to_equations.

(** ** Specification: finite maps as association lists without duplicate keys *)
Definition alist := list (Z * Z).
Definition drop_key (k : Z) (m : alist) : alist := filter (fun e => negb (fst e =? k)) m.
Fixpoint find_key (k : Z) (m : alist) : option Z :=
  match m with [] => None | e :: r => if fst e =? k then Some (snd e) else find_key k r end.

Inductive op := Put (k v : Z) | At (k : Z) | Remove (k : Z) | Length.
Definition spec_step (o : op) (m : alist) : alist * option Z :=
  match o with
  | Put k v => ((k, v) :: drop_key k m, None)
  | At k => (m, Some (match find_key k m with Some v => v | None => PN_NIL end))
  | Remove k => (drop_key k m, None)
  | Length => (m, Some (PN_NUM (Z.of_nat (length m))))
  end.
Fixpoint spec_run (h : list op) (m : alist) : alist * list (option Z) :=
  match h with
  | [] => (m, [])
  | o :: h' => let (m', r) := spec_step o m in
               let (m'', rs) := spec_run h' m' in (m'', r :: rs)
  end.
Definition puts (h : list op) : Z :=
  zlen (filter (fun o => match o with Put _ _ => true | _ => false end) h).

(** the same history on the implementation: [uniq] is the identity number of
    each object used as key, [js] the junk in freshly grown memory at each step *)
Definition impl_step (uniq : Z -> Z) (junk : Z -> Z * Z) (o : op) (t : table) : res (table * option Z) :=
  match o with
  | Put k v => do t' <- table_put uniq junk t k v; Ok (t', None)
  | At k => do v <- table_at uniq t k; Ok (t, Some v)
  | Remove k => do t' <- table_remove uniq t k; Ok (t', None)
  | Length => Ok (t, Some (table_length t))
  end.
Fixpoint impl_run (uniq : Z -> Z) (js : nat -> Z -> Z * Z) (h : list op) (t : table) : res (table * list (option Z)) :=
  match h with
  | [] => Ok (t, [])
  | o :: h' => do (t', r) <- impl_step uniq (js (length h)) o t;
               do (t'', rs) <- impl_run uniq js h' t'; Ok (t'', r :: rs)
  end.

(** ** the refinement *)
Lemma find_drop k k' m : find_key k' (drop_key k m) = if k' =? k then None else find_key k' m.
Proof.
  induction m as [|[a b] m IH]; cbn [drop_key filter find_key fst snd]; [destruct (k' =? k); reflexivity|].
  destruct (Z.eqb_spec a k) as [->|N]; cbn [negb].
  - fold (drop_key k m). rewrite IH. destruct (Z.eqb_spec k' k) as [->|N']; [reflexivity|].
    destruct (Z.eqb_spec k k'); [congruence|reflexivity].
  - cbn [find_key fst snd]. fold (drop_key k m). rewrite IH.
    destruct (Z.eqb_spec a k') as [->|N']; [|reflexivity]. destruct (Z.eqb_spec k' k); [contradiction|reflexivity].
Qed.
Lemma NoDup_map_filter {A B} (f : A -> B) (p : A -> bool) l : NoDup (map f l) -> NoDup (map f (filter p l)).
Proof.
  induction l as [|x l IH]; intros H; [exact H|]. cbn in *. inversion H; subst. destruct (p x); [|auto].
  cbn. constructor; [|auto]. intros C. apply H2. apply in_map_iff in C. destruct C as (y & E & Y).
  apply filter_In in Y. rewrite <- E. apply in_map, Y.
Qed.
Lemma find_In m k v : NoDup (map fst m) -> (find_key k m = Some v <-> In (k, v) m).
Proof.
  induction m as [|[a b] m IH]; intros N; cbn in *; [split; [discriminate|contradiction]|].
  inversion N; subst. destruct (Z.eqb_spec a k) as [->|NE].
  - split.
    + intros E. left. congruence.
    + intros [E|E]; [congruence|]. exfalso. apply H1. apply (in_map fst) in E. exact E.
  - rewrite IH by assumption. split; [auto|]. intros [E|E]; [congruence|exact E].
Qed.

Definition refines (uniq : Z -> Z) (t : table) (m : alist) : Prop :=
  denotes uniq t (fun k => find_key k m) /\ NoDup (map fst m).

Lemma NoDup_of_map {A B} (f : A -> B) l : NoDup (map f l) -> NoDup l.
Proof. apply NoDup_map_inv. Qed.
Lemma refines_perm uniq t m : refines uniq t m -> Permutation (entries t) m.
Proof.
  intros [D N]. apply NoDup_Permutation.
  - apply (NoDup_of_map fst), (entries_NoDup uniq), D.
  - apply (NoDup_of_map fst), N.
  - intros [k v]. rewrite <- (den_entries uniq t _ D). apply find_In, N.
Qed.
Lemma refines_size uniq t m : refines uniq t m -> kh_sz t = zlen m.
Proof.
  intros R. rewrite <- (zlen_perm _ _ (refines_perm uniq t m R)). symmetry. apply (entries_len uniq), R.
Qed.
Lemma refines_empty uniq : refines uniq table_empty [].
Proof. split; [|constructor]. apply (den_ext _ _ _ _ (den_empty uniq)). reflexivity. Qed.

Lemma step_ok uniq junk o t m : refines uniq t m ->
  (match o with Put _ _ => n_occupied t < limit | _ => True end) ->
  exists t', impl_step uniq junk o t = Ok (t', snd (spec_step o m)) /\ refines uniq t' (fst (spec_step o m)) /\
    n_occupied t' <= n_occupied t + (match o with Put _ _ => 1 | _ => 0 end).
Proof.
  intros [D N] L. destruct o as [k v|k|k|]; cbn [impl_step spec_step fst snd].
  - destruct (put_den uniq junk t _ k v D L) as (t' & E & D' & O). rewrite E. cbn [bind].
    exists t'. split; [reflexivity|]. split; [|exact O]. split.
    + apply (den_ext _ _ _ _ D'). intros k'. unfold upd_map. cbn [find_key fst snd]. rewrite find_drop, (Z.eqb_sym k k').
      destruct (k' =? k); reflexivity.
    + cbn. constructor; [|apply NoDup_map_filter, N].
      intros C. apply in_map_iff in C. destruct C as ((a & b) & E' & C). apply filter_In in C. cbn in *. lia.
  - rewrite (at_den uniq t _ k D). cbn [bind]. exists t. split; [reflexivity|]. split; [split; assumption|lia].
  - destruct (remove_den uniq t _ k D) as (t' & E & D' & O). rewrite E. cbn [bind].
    exists t'. split; [reflexivity|]. split; [|lia]. split; [|apply NoDup_map_filter, N].
    apply (den_ext _ _ _ _ D'). intros k'. unfold del_map. rewrite find_drop. reflexivity.
  - exists t. split; [|split; [split; assumption|lia]]. unfold table_length.
    rewrite (refines_size uniq t m (conj D N)). reflexivity.
Qed.

Lemma run_ok uniq js h : forall t m, refines uniq t m -> n_occupied t + puts h <= limit ->
  exists t', impl_run uniq js h t = Ok (t', snd (spec_run h m)) /\ refines uniq t' (fst (spec_run h m)) /\
     n_occupied t' <= n_occupied t + puts h.
Proof.
  induction h as [|o h IH]; intros t m R L.
  - exists t. split; [reflexivity|]. split; [exact R|]. unfold puts. cbn [filter]. rewrite zlen_nil. lia.
  - assert (PH : puts (o :: h) = (match o with Put _ _ => 1 | _ => 0 end) + puts h).
    { unfold puts. destruct o; cbn [filter]; rewrite ?zlen_cons; lia. }
    assert (P0 : 0 <= puts h) by apply zlen_nonneg.
    destruct (step_ok uniq (js (length (o :: h))) o t m R) as (t1 & E1 & R1 & O1).
    { destruct o; [|exact I..]. lia. }
    destruct (IH t1 (fst (spec_step o m)) R1) as (t2 & E2 & R2 & O2); [lia|].
    exists t2. cbn [impl_run spec_run]. rewrite E1. cbn [bind]. rewrite E2. cbn [bind].
    destruct (spec_step o m) as [m' r]. cbn [fst snd] in *. destruct (spec_run h m') as [m'' rs]. cbn [fst snd] in *.
    split; [reflexivity|]. split; [exact R2|lia].
Qed.

(** ** C19 *)
(** Every history of up to 2^24 insertions (the 32-bit size computations bound
    the number of buckets) returns what a finite map returns. *)
Theorem C19_table_is_a_finite_map :
  forall uniq js h, puts h <= 16777216 ->
  exists t, impl_run uniq js h table_empty = Ok (t, snd (spec_run h [])).
Proof.
  intros uniq js h L. destruct (run_ok uniq js h table_empty [] (refines_empty uniq)) as (t & E & _).
  - cbn. unfold limit. lia.
  - exists t. exact E.
Qed.
(** in particular: a read sees the last write to the same key, and only that *)
Theorem C19_read_after_put :
  forall uniq js h k v, puts h + 1 <= 16777216 ->
  exists t rs, impl_run uniq js (h ++ [Put k v; At k]) table_empty = Ok (t, rs ++ [None; Some v]).
Proof.
  intros uniq js h k v L.
  assert (PA : puts (h ++ [Put k v; At k]) = puts h + 1).
  { unfold puts. rewrite filter_app, zlen_app. cbn [filter]. rewrite zlen_cons, zlen_nil. lia. }
  destruct (C19_table_is_a_finite_map uniq js (h ++ [Put k v; At k])) as [t E]; [lia|].
  exists t, (snd (spec_run h [])). rewrite E. do 2 f_equal. generalize (@nil (Z * Z)). clear.
  induction h as [|o h IH]; intros m.
  - cbn. rewrite Z.eqb_refl. reflexivity.
  - cbn [spec_run app]. destruct (spec_step o m) as [m' r]. specialize (IH m').
    destruct (spec_run (h ++ [Put k v; At k]) m'). destruct (spec_run h m'). cbn in *. congruence.
Qed.
Theorem C19_read_after_remove :
  forall uniq js h k, puts h <= 16777216 ->
  exists t rs, impl_run uniq js (h ++ [Remove k; At k]) table_empty = Ok (t, rs ++ [None; Some PN_NIL]).
Proof.
  intros uniq js h k L.
  assert (PA : puts (h ++ [Remove k; At k]) = puts h).
  { unfold puts. rewrite filter_app, zlen_app. cbn [filter]. rewrite zlen_nil. lia. }
  destruct (C19_table_is_a_finite_map uniq js (h ++ [Remove k; At k])) as [t E]; [lia|].
  exists t, (snd (spec_run h [])). rewrite E. do 2 f_equal. generalize (@nil (Z * Z)). clear.
  induction h as [|o h IH]; intros m.
  - cbn. rewrite find_drop, Z.eqb_refl. reflexivity.
  - cbn [spec_run app]. destruct (spec_step o m) as [m' r]. specialize (IH m').
    destruct (spec_run (h ++ [Remove k; At k]) m'). destruct (spec_run h m'). cbn in *. congruence.
Qed.
(** operations on one key are invisible through every other key *)
Theorem C19_other_keys_unaffected :
  forall uniq js h k k' v, puts h + 1 <= 16777216 -> k <> k' ->
  exists t t' rs x rs', impl_run uniq js (h ++ [At k'; Put k v; At k'; Remove k; At k']) table_empty
     = Ok (t, rs ++ [Some x; None; Some x; None; Some x]) /\
     impl_run uniq js (h ++ [At k']) table_empty = Ok (t', rs' ++ [Some x]).
Proof.
  intros uniq js h k k' v L N.
  assert (PA : puts (h ++ [At k'; Put k v; At k'; Remove k; At k']) = puts h + 1).
  { unfold puts. rewrite filter_app, zlen_app. cbn [filter]. rewrite zlen_cons, zlen_nil. lia. }
  assert (PB : puts (h ++ [At k']) = puts h).
  { unfold puts. rewrite filter_app, zlen_app. cbn [filter]. rewrite zlen_nil. lia. }
  destruct (C19_table_is_a_finite_map uniq js (h ++ [At k'; Put k v; At k'; Remove k; At k'])) as [t E]; [lia|].
  destruct (C19_table_is_a_finite_map uniq js (h ++ [At k'])) as [t' E']; [lia|].
  exists t, t', (snd (spec_run h [])), (match find_key k' (fst (spec_run h [])) with Some v => v | None => PN_NIL end), (snd (spec_run h [])).
  rewrite E, E'. clear - N. assert (NE : (k =? k') = false) by lia. assert (NE' : (k' =? k) = false) by lia.
  assert (A : forall m, snd (spec_run (h ++ [At k'; Put k v; At k'; Remove k; At k']) m) =
     snd (spec_run h m) ++ (let x := Some (match find_key k' (fst (spec_run h m)) with Some v => v | None => PN_NIL end) in [x; None; x; None; x])
     /\ snd (spec_run (h ++ [At k']) m) = snd (spec_run h m) ++ [Some (match find_key k' (fst (spec_run h m)) with Some v => v | None => PN_NIL end)]).
  { induction h as [|o h IH]; intros m.
    - split; [|reflexivity]. cbn [app spec_run spec_step fst snd find_key]. rewrite !find_drop. cbn [find_key fst snd]. rewrite !find_drop, NE, NE'. reflexivity.
    - cbn [spec_run app]. destruct (spec_step o m) as [m' r]. specialize (IH m').
      destruct (spec_run (h ++ [At k'; Put k v; At k'; Remove k; At k']) m'). destruct (spec_run (h ++ [At k']) m').
      destruct (spec_run h m'). cbn in *. destruct IH as [-> ->]. split; reflexivity. }
  destruct (A []) as [-> ->]. split; reflexivity.
Qed.
Example C19_example :
  let js := fun (_ : nat) (_ : Z) => (77, 78) in
  exists t, impl_run (fun x => x) js [Put 3 10; Put 5 11; Put 11 12; Put 19 13; Remove 5; Put 5 14; At 3; At 5; At 7; Length] table_empty
  = Ok (t, [None; None; None; None; None; None; Some 10; Some 14; Some PN_NIL; Some (PN_NUM 4)]).
Proof. vm_compute. eexists. reflexivity. Qed.

(** ** C20 *)
(** the loops that fill a fresh tuple *)
Lemma fill_ok (g : Z * Z -> Z) l : forall i m, 0 <= i -> i + zlen l <= zlen m ->
  foldr (fun en '(i, m) => do m <- wr m i (g en); Ok (i + 1, m)) l (i, m)
  = Ok (i + zlen l, ztake i m ++ map g l ++ zdrop (i + zlen l) m).
Proof.
  induction l as [|e l IH]; intros i m Hi Hl.
  - cbn [foldr map app]. rewrite zlen_nil, Z.add_0_r, ztake_zdrop. reflexivity.
  - rewrite zlen_cons in *. pose proof (zlen_nonneg l). cbn [foldr]. rewrite wr_ok by lia. cbn [bind].
    rewrite IH; [|lia|rewrite zlen_upd by lia; lia].
    f_equal. f_equal; [lia|]. replace (i + 1 + zlen l) with (i + (1 + zlen l)) by lia.
    assert (E1 : ztake (i + 1) (upd m i (g e)) = ztake i m ++ [g e]).
    { rewrite upd_split by lia. unfold ztake at 1. rewrite firstn_app.
      assert (LT : length (ztake i m) = Z.to_nat i) by (pose proof (zlen_ztake i m ltac:(lia)) as X; unfold zlen in X; lia).
      rewrite LT. rewrite firstn_all2 by lia.
      replace (Z.to_nat (i + 1) - Z.to_nat i)%nat with 1%nat by lia. reflexivity. }
    assert (E2 : zdrop (i + (1 + zlen l)) (upd m i (g e)) = zdrop (i + (1 + zlen l)) m).
    { unfold upd, zdrop. rewrite skipn_app.
      assert (LT : length (firstn (Z.to_nat i) m) = Z.to_nat i) by (rewrite firstn_length; unfold zlen in *; lia).
      rewrite LT. rewrite (skipn_all2 (n := Z.to_nat (i + (1 + zlen l)))) by lia. cbn [app].
      replace (Z.to_nat (i + (1 + zlen l)) - Z.to_nat i)%nat with (S (Z.to_nat (zlen l))) by lia.
      rewrite skipn_cons. rewrite skipn_plus. f_equal. lia. }
    rewrite E1, E2, <- app_assoc. reflexivity.
Qed.
Lemma new_tuple_ok e n : 0 <= n <= 67108864 -> exists m, NEW_TUPLE e n = Ok (mkT n n m) /\ zlen m = n.
Proof.
  intros H. unfold NEW_TUPLE, alloc_words, words_ok.
  replace ((0 <=? n) && (16 + 8 * n <? 2147483648)) with true by lia. cbn [bind].
  eexists. split; [reflexivity|]. unfold zlen. rewrite map_length, seq_length. lia.
Qed.
Lemma size_bound uniq (t : table) : inv Z.eqb (pn_hash uniq) t -> 0 <= kh_sz t <= 67108864.
Proof.
  intros I. pose proof (size_le_occ _ _ _ I). pose proof (inv_le _ _ _ I). pose proof (inv_ub _ _ _ I) as U.
  pose proof (inv_nle _ _ _ I). destruct (Z.eqb_spec (n_buckets t) 0); [lia|].
  unfold hash_upper in U. destruct (inv_n _ _ _ I) as [E|E]; [contradiction|]. apply pow2_ge in E. lia.
Qed.
Lemma fill_tuple uniq e (t : table) (g : Z * Z -> Z) : inv Z.eqb (pn_hash uniq) t ->
  exists m, (do t2 <- NEW_TUPLE e (kh_sz t);
   do (i, m) <- kh_each t (fun _ en '(i, m) => do m <- wr m i (g en); Ok (i + 1, m)) (0, t_mem t2);
   Ok (mkT (t_len t2) (t_alloc t2) m)) = Ok (mkT (kh_sz t) (kh_sz t) m) /\ m = map g (entries t).
Proof.
  intros I. destruct (new_tuple_ok e (kh_sz t) (size_bound uniq t I)) as (m & E & L). rewrite E. cbn [bind t_mem t_len t_alloc].
  rewrite each_fold by apply I. rewrite (foldr_snd (fun en '(i, m) => do m <- wr m i (g en); Ok (i + 1, m))).
  pose proof (entries_len uniq t I) as EL.
  rewrite fill_ok by lia. cbn [bind]. eexists. split; [reflexivity|].
  unfold ztake, zdrop. cbn. rewrite skipn_all2, app_nil_r; [reflexivity|]. unfold zlen in *. lia.
Qed.
Definition log_block (k v : Z) (s : list (Z * Z)) : res (list (Z * Z) * Z) := Ok (s ++ [(k, v)], PN_NIL).
Lemma each_entries {S} uniq (t : table) (b : block2 S) s : inv Z.eqb (pn_hash uniq) t ->
  table_each t b s = foldr (fun e s => do (s, _) <- b (fst e) (snd e) s; Ok s) (entries t) s.
Proof.
  intros I. unfold table_each. rewrite each_fold by apply I.
  rewrite (foldr_snd (fun (e : Z * Z) s => do (s, _) <- b (fst e) (snd e) s; Ok s)). reflexivity.
Qed.

(** After any history: length counts the live entries, and keys, values and
    each list every live entry exactly once, in one common order. *)
Theorem C20_enumeration :
  forall uniq js h t rs, puts h <= 16777216 -> impl_run uniq js h table_empty = Ok (t, rs) ->
  exists l : list (Z * Z),
    Permutation l (fst (spec_run h [])) /\
    table_length t = PN_NUM (zlen l) /\
    (forall e, exists tk, table_keys e t = Ok tk /\ contents tk = map fst l) /\
    (forall e, exists tv, table_values e t = Ok tv /\ contents tv = map snd l) /\
    table_each t log_block [] = Ok l.
Proof.
  intros uniq js h t rs L E. destruct (run_ok uniq js h table_empty [] (refines_empty uniq)) as (t' & E' & R & _).
  { cbn. unfold limit. lia. }
  rewrite E in E'. injection E' as <- _. pose proof R as [[I H] N]. exists (entries t).
  assert (CT : forall m, contents (mkT (kh_sz t) (kh_sz t) m) = m \/ zlen m <> kh_sz t).
  { intros m. destruct (Z.eq_dec (zlen m) (kh_sz t)) as [Q|Q]; [left|right; exact Q].
    unfold contents, ztake. cbn. apply firstn_all2. unfold zlen in Q. lia. }
  pose proof (entries_len uniq t I) as EL.
  split; [apply (refines_perm uniq); exact R|]. split; [unfold table_length; rewrite EL; reflexivity|].
  split; [|split].
  - intros e. destruct (fill_tuple uniq e t fst I) as (m & F & M). eexists. split; [exact F|].
    destruct (CT m) as [Q|Q]; [rewrite Q; exact M|]. subst m. rewrite zlen_map in Q. contradiction.
  - intros e. destruct (fill_tuple uniq e t snd I) as (m & F & M). eexists. split; [exact F|].
    destruct (CT m) as [Q|Q]; [rewrite Q; exact M|]. subst m. rewrite zlen_map in Q. contradiction.
  - rewrite (each_entries uniq t log_block [] I).
    assert (G : forall l acc, foldr (fun (e : Z * Z) s => do (s, _) <- log_block (fst e) (snd e) s; Ok s) l acc = Ok (acc ++ l)).
    { induction l as [|[k v] l IH]; intros acc; [rewrite app_nil_r; reflexivity|]. cbn [foldr log_block bind fst snd].
      rewrite IH, <- app_assoc. reflexivity. }
    apply G.
Qed.
(** each with an arbitrary (effectful, possibly failing) block calls it once per
    live entry, in the order of the same list *)
Theorem C20_each_runs_the_block_once_per_entry :
  forall uniq js h t rs, puts h <= 16777216 -> impl_run uniq js h table_empty = Ok (t, rs) ->
  exists l, Permutation l (fst (spec_run h [])) /\
  forall S (b : block2 S) s, table_each t b s = foldr (fun e s => do (s, _) <- b (fst e) (snd e) s; Ok s) l s.
Proof.
  intros uniq js h t rs L E. destruct (run_ok uniq js h table_empty [] (refines_empty uniq)) as (t' & E' & R & _).
  { cbn. unfold limit. lia. }
  rewrite E in E'. injection E' as <- _. exists (entries t). split; [apply (refines_perm uniq), R|].
  intros S b s. apply (each_entries uniq). apply R.
Qed.
(** map (with a block that returns a value and threads no state) *)
Theorem C20_map :
  forall uniq js h t rs, puts h <= 16777216 -> impl_run uniq js h table_empty = Ok (t, rs) ->
  exists l, Permutation l (fst (spec_run h [])) /\
  forall e (f : Z -> Z) (g : Z -> Z -> Z),
   (exists tu, table_map e t false (fun k (_ : unit) => Ok (tt, f k)) (fun k v _ => Ok (tt, g k v)) tt = Ok (tt, tu)
      /\ contents tu = map (fun p => f (fst p)) l) /\
   (exists tu, table_map e t true (fun k (_ : unit) => Ok (tt, f k)) (fun k v _ => Ok (tt, g k v)) tt = Ok (tt, tu)
      /\ contents tu = map (fun p => g (fst p) (snd p)) l).
Proof.
  intros uniq js h t rs L E. destruct (run_ok uniq js h table_empty [] (refines_empty uniq)) as (t' & E' & R & _).
  { cbn. unfold limit. lia. }
  rewrite E in E'. injection E' as <- _. exists (entries t). split; [apply (refines_perm uniq), R|].
  pose proof R as [[I _] _]. pose proof (entries_len uniq t I) as EL.
  assert (MAP : forall e (q : bool) (F : Z * Z -> Z) b1 b2,
     (forall en (s : unit), (if q then b2 (fst en) (snd en) s else b1 (fst en) s) = Ok (tt, F en)) ->
     exists tu, table_map e t q b1 b2 tt = Ok (tt, tu) /\ contents tu = map F (entries t)).
  { intros e q F b1 b2 HB. unfold table_map.
    destruct (new_tuple_ok e (kh_sz t) (size_bound uniq t I)) as (m & En & Lm). rewrite En. cbn [bind t_mem t_len t_alloc].
    rewrite each_fold by apply I.
    assert (G : forall l i m, foldr (fun (p : Z * (Z * Z)) '(s, i, m) =>
        do (s, r) <- (if q then b2 (fst (snd p)) (snd (snd p)) s else b1 (fst (snd p)) s);
        do m <- wr m i r; Ok (s, i + 1, m)) l (tt, i, m) =
        (do (i, m) <- foldr (fun en '(i, m) => do m <- wr m i (F en); Ok (i + 1, m)) (map snd l) (i, m); Ok (tt, i, m))).
    { induction l as [|p l IH]; intros i m0; [reflexivity|]. cbn [foldr map]. rewrite HB. cbn [bind].
      destruct (wr m0 i (F (snd p))); cbn [bind]; [apply IH|reflexivity..]. }
    rewrite G. fold (entries t). rewrite fill_ok by lia. cbn [bind]. eexists. split; [reflexivity|].
    unfold contents, ztake, zdrop. cbn.
    rewrite (skipn_all2 m) by (unfold zlen in *; lia). rewrite app_nil_r.
    apply firstn_all2. rewrite map_length. unfold zlen in EL. lia. }
  intros e f g. split.
  - apply (MAP e false (fun p => f (fst p))). intros en []. reflexivity.
  - apply (MAP e true (fun p => g (fst p) (snd p))). intros en []. reflexivity.
Qed.
Example C20_example : let js := fun (_ : nat) (_ : Z) => (77, 78) in
  exists t, impl_run (fun x => x) js [Put 3 10; Put 5 11; Put 11 12; Put 19 13; Remove 5] table_empty = Ok (t, [None; None; None; None; None])
    /\ table_length t = PN_NUM 3.
Proof. eexists. split; [vm_compute; reflexivity|]. vm_compute. reflexivity. Qed.

(** ** C21 *)
(** A reachable table that has buckets keeps an empty one, and the probe
    sequence of every key visits every bucket within n steps. *)
Theorem C21_probing_terminates :
  forall uniq js h t rs, puts h <= 16777216 -> impl_run uniq js h table_empty = Ok (t, rs) ->
  n_buckets t <> 0 ->
  (exists i, gnth (fl t) i = Some (true, false) \/ gnth (fl t) i = Some (true, true)) /\
  (forall key i, 0 <= i < n_buckets t ->
     exists s, 0 <= s < n_buckets t /\ (pn_hash uniq key + s * Z.lor (pn_hash uniq key) 1) mod n_buckets t = i) /\
  (forall key, exists x, kh_get Z.eqb (pn_hash uniq) t key = Ok x) /\
  (forall key junk, puts h < 16777216 -> exists r, kh_put Z.eqb (pn_hash uniq) junk t key = Ok r).
Proof.
  intros uniq js h t rs L E N. destruct (run_ok uniq js h table_empty [] (refines_empty uniq)) as (t' & E' & R & O).
  { cbn. unfold limit. lia. }
  rewrite E in E'. injection E' as <- _. pose proof R as [[I _] _]. split; [|split; [|split]].
  - destruct (has_empty _ _ _ I N) as (i & [a b] & G & F). cbn in F. subst a. exists i. destruct b; auto.
  - intros key i Hi. destruct (inv_n _ _ _ I) as [Z0|P]; [contradiction|].
    exact (pos_surj Z.eqb (pn_hash uniq) Z.eqb_refl Z.eqb_sym (zeq_trans uniq) (zeq_compat uniq) _ key i P Hi).
  - intros key. destruct (get_ok Z.eqb (pn_hash uniq) Z.eqb_refl Z.eqb_sym (zeq_trans uniq) (zeq_compat uniq) t key I)
      as [(i & e & _ & _ & G)|(_ & G)]; rewrite G; eauto.
  - intros key junk Hp. cbn in O. destruct (put_ok Z.eqb (pn_hash uniq) Z.eqb_refl Z.eqb_sym (zeq_trans uniq) (zeq_compat uniq) junk t key I)
      as (t1 & x & r & G & _).
    + apply (room uniq t I). unfold limit. lia.
    + rewrite G. eauto.
Qed.
Example C21_example : let js := fun (_ : nat) (_ : Z) => (77, 78) in
  exists t rs, impl_run (fun x => x) js [Put 3 10; Put 5 11; Put 11 12; Put 19 13; Remove 5] table_empty = Ok (t, rs)
    /\ n_buckets t = 8.
Proof. do 2 eexists. split; [vm_compute; reflexivity|]. vm_compute. reflexivity. Qed.

(** ** C22 *)
(** After any history, clone yields a table that answers every further history
    exactly as the original would. *)
Theorem C22_clone_has_the_same_mapping :
  forall uniq js h t rs junk, puts h <= 16777216 -> impl_run uniq js h table_empty = Ok (t, rs) ->
  exists t2, table_clone uniq junk t = Ok t2 /\
   (forall k, table_at uniq t2 k = table_at uniq t k) /\ table_length t2 = table_length t /\
   (forall js' h', puts h + puts h' <= 16777216 ->
     exists a b rs', impl_run uniq js' h' t = Ok (a, rs') /\ impl_run uniq js' h' t2 = Ok (b, rs')).
Proof.
  intros uniq js h t rs junk L E. destruct (run_ok uniq js h table_empty [] (refines_empty uniq)) as (t' & E' & R & O).
  { cbn. unfold limit. lia. }
  rewrite E in E'. injection E' as <- _. pose proof R as [D N]. cbn in O.
  destruct (clone_den uniq junk t _ D) as (t2 & E2 & D2 & O2); [unfold limit; lia|].
  exists t2. split; [exact E2|]. assert (R2 : refines uniq t2 (fst (spec_run h []))) by (split; assumption).
  split; [|split].
  - intros k. rewrite (at_den uniq t2 _ k D2), (at_den uniq t _ k D). reflexivity.
  - unfold table_length. rewrite (refines_size _ _ _ R2), (refines_size _ _ _ R). reflexivity.
  - intros js' h' L'.
    destruct (run_ok uniq js' h' t _ R) as (a & Ea & _); [unfold limit; lia|].
    destruct (run_ok uniq js' h' t2 _ R2) as (b & Eb & _); [unfold limit; lia|]. eauto.
Qed.
(** independence: clone and original are separate objects; operations on one
    object of a heap of tables leave every other object as it was *)
Definition heap := Z -> option table.
Definition heap_step uniq junk (id : Z) (o : op) (hp : heap) : res (heap * option Z) :=
  match hp id with
  | None => UB
  | Some t => do (t', r) <- impl_step uniq junk o t; Ok (fun i => if i =? id then Some t' else hp i, r)
  end.
Fixpoint heap_run uniq (js : nat -> Z -> Z * Z) (id : Z) (h : list op) (hp : heap) : res heap :=
  match h with
  | [] => Ok hp
  | o :: h' => do (hp, _) <- heap_step uniq (js (length h)) id o hp; heap_run uniq js id h' hp
  end.
Definition heap_clone uniq junk (id new : Z) (hp : heap) : res heap :=
  match hp id with
  | None => UB
  | Some t => do t2 <- table_clone uniq junk t; Ok (fun i => if i =? new then Some t2 else hp i)
  end.
Theorem C22_clone_is_independent :
  forall uniq js junk id new hp hp1 h hp2,
  hp new = None -> heap_clone uniq junk id new hp = Ok hp1 -> heap_run uniq js new h hp1 = Ok hp2 ->
  hp2 id = hp id.
Proof.
  intros uniq js junk id new hp hp1 h hp2 F C R. unfold heap_clone in C.
  destruct (hp id) as [t|] eqn:Eid; [|discriminate].
  assert (NE : id <> new) by congruence.
  destruct (table_clone uniq junk t) as [t2| |]; try discriminate. injection C as <-.
  assert (G : forall h hp1, hp1 id = Some t -> heap_run uniq js new h hp1 = Ok hp2 -> hp2 id = Some t).
  { clear - NE. induction h as [|o h IH]; intros hp1 A R; [cbn in R; congruence|].
    cbn [heap_run] in R. unfold heap_step in R. destruct (hp1 new) as [tn|]; [|discriminate].
    destruct (impl_step uniq (js (length (o :: h))) o tn) as [[t' r]| |]; try discriminate. cbn [bind] in R.
    apply IH in R; [exact R|]. cbn. destruct (Z.eqb_spec id new); [contradiction|exact A]. }
  apply (G h _) in R; [exact R|]. cbn. destruct (Z.eqb_spec id new); [contradiction|exact Eid].
Qed.
(** slice keeps exactly the listed keys that are present *)
Theorem C22_slice_keeps_exactly_the_listed_keys :
  forall uniq js h t rs junk keys, puts h <= 16777216 -> impl_run uniq js h table_empty = Ok (t, rs) ->
  wf keys -> t_len keys <= 16777216 ->
  exists t2, table_slice uniq junk t keys = Ok t2 /\
   forall k, table_at uniq t2 k = if existsb (Z.eqb k) (contents keys) then table_at uniq t k else Ok PN_NIL.
Proof.
  intros uniq js h t rs junk keys L E W WL. destruct (run_ok uniq js h table_empty [] (refines_empty uniq)) as (t' & E' & R & O).
  { cbn. unfold limit. lia. }
  rewrite E in E'. injection E' as <- _. pose proof R as [D N]. pose proof D as [I HM].
  set (m := fun k => find_key k (fst (spec_run h []))) in *.
  unfold table_slice. destruct (fresh_den uniq junk) as (t0 & E0 & D0 & O0). rewrite E0. cbn [bind].
  rewrite TUPLE_EACH_ok by exact W.
  assert (LC : zlen (contents keys) <= 16777216).
  { destruct W as (A & B & C). unfold contents. rewrite zlen_ztake by lia. exact WL. }
  assert (G : forall l idx t2 m2, denotes uniq t2 m2 -> n_occupied t2 + zlen l <= limit ->
     exists t3, walk (S := khash Z Z) (R := Empty_set) (fun _ v t2 =>
      do k <- kh_get Z.eqb (pn_hash uniq) t v;
      if negb (k =? n_buckets t) then
        do (t2, k2, _) <- kh_put Z.eqb (pn_hash uniq) junk t2 v;
        do e <- grd (kv t) k;
        do t2 <- kh_set_val t2 k2 (snd e);
        Ok (inl t2)
      else Ok (inl t2)) idx l t2 = Ok (inl t3) /\
      denotes uniq t3 (fun k => if existsb (Z.eqb k) l then match m k with Some v => Some v | None => m2 k end else m2 k)).
  { induction l as [|v l IH]; intros idx t2 m2 D2 Q.
    - exists t2. split; [reflexivity|]. exact D2.
    - rewrite zlen_cons in Q. pose proof (zlen_nonneg l). cbn [walk].
      destruct (get_ok Z.eqb (pn_hash uniq) Z.eqb_refl Z.eqb_sym (zeq_trans uniq) (zeq_compat uniq) t v I)
        as [(i & e & Oc & Qe & G)|(NM & G)]; rewrite G; cbn [bind].
      + pose proof (occ_range _ _ _ _ _ I Oc). destruct (Z.eqb_spec i (n_buckets t)); [lia|]. cbn [negb].
        destruct (put_den uniq junk t2 m2 v (snd e) D2) as (t3 & P & D3 & O3); [lia|].
        unfold table_put in P. destruct (kh_put Z.eqb (pn_hash uniq) junk t2 v) as [[[t2' x] r]| |]; try discriminate.
        cbn [bind] in *. destruct Oc as (f & Ef & Lf & Ee). rewrite (grd_Some _ _ _ Ee). cbn [bind]. rewrite P. cbn [bind].
        destruct (IH (idx + 1) t3 _ D3) as (t4 & E4 & D4); [lia|]. exists t4. split; [exact E4|].
        apply (den_ext _ _ _ _ D4). intros k. cbn [existsb]. unfold upd_map.
        apply Z.eqb_eq in Qe. assert (MV : m v = Some (snd e)).
        { apply HM. exists i, f. destruct e as [ke ve]. cbn in *. subst ke. auto. }
        destruct (Z.eqb_spec k v) as [->|NE]; cbn [orb]; [|reflexivity].
        rewrite MV. destruct (existsb (Z.eqb v) l); reflexivity.
      + rewrite Z.eqb_refl. cbn [negb bind]. destruct (IH (idx + 1) t2 _ D2) as (t4 & E4 & D4); [lia|].
        exists t4. split; [exact E4|]. apply (den_ext _ _ _ _ D4). intros k. cbn [existsb].
        destruct (Z.eqb_spec k v) as [->|NE]; cbn [orb]; [|reflexivity].
        assert (MV : m v = None).
        { destruct (m v) eqn:Em; [|reflexivity]. apply HM in Em. apply NM in Em. cbn in Em. lia. }
        rewrite MV. destruct (existsb (Z.eqb v) l); reflexivity. }
  destruct (G (contents keys) 0 t0 _ D0) as (t3 & E3 & D3); [unfold limit; lia|].
  exists t3. split.
  - rewrite E3. reflexivity.
  - intros k. rewrite (at_den uniq t3 _ k D3), (at_den uniq t _ k D). fold m.
    destruct (existsb (Z.eqb k) (contents keys)); [|reflexivity]. change (find_key k (fst (spec_run h []))) with (m k).
    destruct (m k); reflexivity.
Qed.
Example C22_example : let js := fun (_ : nat) (_ : Z) => (77, 78) in
  exists t rs t2, impl_run (fun x => x) js [Put 3 10; Put 5 11; Put 11 12; Put 19 13; Remove 5] table_empty = Ok (t, rs)
    /\ table_slice (fun x => x) (js O) t (mkT 3 3 [3; 5; 19]) = Ok t2 /\ table_length t2 = PN_NUM 2
    /\ wf (mkT 3 3 [3; 5; 19]).
Proof. do 3 eexists. split; [vm_compute; reflexivity|]. split; [vm_compute; reflexivity|]. split; [reflexivity|]. unfold wf, zlen. cbn. lia. Qed.
