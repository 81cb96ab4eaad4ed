(** Property C38: arity bounds of declared parameter lists. *)
From Coq Require Import ZifyBool.
From Verif Require Import Base Arr WordModel WordProofs SigModel.
Ltac Zify.zify_post_hook ::= Z.div_mod_to_equations.

(** ** Specification: parameter lists *)
(** What may stand behind a name: nothing, a type, a default value, or a modifier
    with an optional type (nil when absent) *)
Inductive deco := Plain | Typed (t : Z) | Default (d : Z) | Modified (t m : Z).
(** An entry of a parameter list: a parameter, the bar before the optional ones, or
    the dots *)
Inductive item := Param (name : Z) (d : deco) | Bar | Dots.
(** How a parameter list is written as a signature (syntax.y 353-378, 417-421) *)
Definition enc1 (i : item) : list Z :=
  match i with
  | Param n Plain => [n]
  | Param n (Typed t) => [n; t]
  | Param n (Default d) => [n; PN_NUM 58; d]
  | Param n (Modified t m) => [n; t; m]
  | Bar => [PN_NUM 124]
  | Dots => [PN_NUM 46]
  end.
Definition enc (l : list item) : list Z := concat (map enc1 l).
(** the parameters, and how many of them must be given *)
Definition is_param (i : item) : bool := match i with Param _ _ => true | _ => false end.
Definition params (l : list item) : list item := filter is_param l.
Fixpoint required (l : list item) : Z :=
  match l with
  | [] => 0
  | Bar :: _ => 0
  | Param _ (Default _) :: _ => 0
  | Param _ _ :: l => 1 + required l
  | Dots :: l => required l
  end.
(** names are strings; types and modifiers are not, and are not the characters ':' and
    '|'; a default value is anything but the integer 58 (the code of ':') *)
Definition mark_ok (is_str : Z -> bool) (t : Z) : Prop := is_str t = false /\ t <> PN_NUM 58 /\ t <> PN_NUM 124.
Definition item_ok (is_str : Z -> bool) (i : item) : Prop :=
  match i with
  | Param n d => is_str n = true /\
      match d with
      | Plain => True
      | Typed t => mark_ok is_str t
      | Default d => d <> PN_NUM 58
      | Modified t m => mark_ok is_str t /\ mark_ok is_str m
      end
  | _ => True
  end.
(** strings are objects, not integers *)
Definition strings_are_objects (is_str : Z -> bool) : Prop := forall v, is_str v = true -> PN_IS_INT v = false.

Lemma colon_int : PN_IS_INT COLON = true. Proof. reflexivity. Qed.
Lemma bar_int : PN_IS_INT BAR = true. Proof. reflexivity. Qed.

Section P.
Variable is_str : Z -> bool.
Hypothesis SO : strings_are_objects is_str.

Lemma str_colon v : is_str v = true -> (PN_IS_INT v && (v =? COLON)) = false /\ (PN_IS_INT v && (v =? BAR)) = false.
Proof. intros H. rewrite (SO _ H). auto. Qed.
Lemma nstr_colon : is_str COLON = false.
Proof. destruct (is_str COLON) eqn:E; auto. apply SO in E. rewrite colon_int in E. discriminate. Qed.
Lemma nstr_bar : is_str BAR = false.
Proof. destruct (is_str BAR) eqn:E; auto. apply SO in E. rewrite bar_int in E. discriminate. Qed.
Lemma nstr_dot : is_str (PN_NUM 46) = false.
Proof. destruct (is_str (PN_NUM 46)) eqn:E; auto. apply SO in E. vm_compute in E. discriminate. Qed.

(** loops on the remaining words *)
Definition cnt1 (v : Z) (r : list Z) (count : Z) : res Z :=
  let count := if is_str v then count + 1 else count in
  if PN_IS_INT v && (v =? COLON)
  then match r with [] => UB | w :: _ => Ok (if is_str w then count - 1 else count) end
  else Ok count.
Lemma rd_here pre v r : rd (pre ++ v :: r) (zlen pre) = Ok v.
Proof.
  rewrite rd_ok by (rewrite zlen_app, zlen_cons; pose proof (zlen_nonneg r); pose proof (zlen_nonneg pre); lia).
  rewrite znth_app2 by lia. rewrite Z.sub_diag. reflexivity.
Qed.
Lemma rd_next pre v r : rd (pre ++ v :: r) (zlen pre + 1) = match r with [] => UB | w :: _ => Ok w end.
Proof.
  destruct r as [|w r].
  - apply rd_ub. rewrite zlen_app, zlen_cons. change (zlen (@nil Z)) with 0. lia.
  - replace (pre ++ v :: w :: r) with ((pre ++ [v]) ++ w :: r) by (rewrite <- app_assoc; reflexivity).
    replace (zlen pre + 1) with (zlen (pre ++ [v])) by (rewrite zlen_app, zlen_cons; change (zlen (@nil Z)) with 0; lia).
    apply rd_here.
Qed.
Lemma sig_count_eq pre v r c : sig_count is_str (pre ++ v :: r) (zlen pre) v c = cnt1 v r c.
Proof. unfold sig_count, cnt1. destruct (PN_IS_INT v && (v =? COLON)); auto. rewrite rd_next. destruct r; reflexivity. Qed.

Fixpoint ar (l : list Z) (c : Z) : res Z :=
  match l with [] => Ok c | v :: r => do c <- cnt1 v r c; ar r c end.
Lemma arity_ar : forall l pre c, arity_loop is_str (pre ++ l) (zlen pre) (length l) c = ar l c.
Proof.
  induction l as [|v r IH]; intros pre c; [reflexivity|].
  cbn [length arity_loop ar]. rewrite rd_here. cbn [bind]. rewrite sig_count_eq.
  destruct (cnt1 v r c); cbn [bind]; auto.
  replace (pre ++ v :: r) with ((pre ++ [v]) ++ r) by (rewrite <- app_assoc; reflexivity).
  replace (zlen pre + 1) with (zlen (pre ++ [v])) by (rewrite zlen_app, zlen_cons; change (zlen (@nil Z)) with 0; lia).
  apply IH.
Qed.
Fixpoint mi (l : list Z) (c : Z) : res Z :=
  match l with [] => Ok c
  | v :: r => let c := if is_str v then c + 1 else c in
              if PN_IS_INT v && (v =? BAR) then Ok c
              else if PN_IS_INT v && (v =? COLON) then Ok (c - 1) else mi r c
  end.
Lemma minargs_mi : forall l pre c, minargs_loop is_str (pre ++ l) (zlen pre) (length l) c = mi l c.
Proof.
  induction l as [|v r IH]; intros pre c; [reflexivity|].
  cbn [length minargs_loop mi]. rewrite rd_here. cbn [bind].
  destruct (PN_IS_INT v && (v =? BAR)); auto. destruct (PN_IS_INT v && (v =? COLON)); auto.
  replace (pre ++ v :: r) with ((pre ++ [v]) ++ r) by (rewrite <- app_assoc; reflexivity).
  replace (zlen pre + 1) with (zlen (pre ++ [v])) by (rewrite zlen_app, zlen_cons; change (zlen (@nil Z)) with 0; lia).
  apply IH.
Qed.
Definition at1 (v : Z) (r : list Z) : res (list Z) :=
  match r with
  | [] => Ok [v]
  | typ :: r' => if PN_IS_INT typ then
                   if typ =? COLON then match r' with d :: _ => Ok [v; typ; d] | [] => Ok [v; typ] end else Ok [v; typ]
                 else Ok [v]
  end.
Fixpoint al (l : list Z) (c k : Z) : res (list Z) :=
  match l with [] => Ok [] | v :: r => do c <- cnt1 v r c; if c =? k then at1 v r else al r c k end.
Lemma at_al : forall l pre c k, at_loop is_str (pre ++ l) (zlen pre) (length l) c k = al l c k.
Proof.
  induction l as [|v r IH]; intros pre c k; [reflexivity|].
  cbn [length at_loop al]. rewrite rd_here. cbn [bind]. rewrite sig_count_eq.
  destruct (cnt1 v r c) as [c'| |]; cbn [bind]; auto.
  destruct (c' =? k).
  - unfold at1. rewrite zlen_app, zlen_cons, rd_next.
    destruct r as [|typ r']; [change (zlen (@nil Z)) with 0; destruct (zlen pre + 1 <? zlen pre + (1 + 0)) eqn:E; auto; lia|].
    rewrite zlen_cons. pose proof (zlen_nonneg r').
    destruct (zlen pre + 1 <? zlen pre + (1 + (1 + zlen r'))) eqn:E; [|lia]. cbn [bind].
    destruct (PN_IS_INT typ); auto. destruct (typ =? COLON); rewrite ?andb_true_r, ?andb_false_r; auto.
    destruct r' as [|d r'']; [change (zlen (@nil Z)) with 0; destruct (zlen pre + 2 <? zlen pre + (1 + (1 + 0))) eqn:E2; auto; lia|].
    rewrite zlen_cons. pose proof (zlen_nonneg r'').
    destruct (zlen pre + 2 <? zlen pre + (1 + (1 + (1 + zlen r'')))) eqn:E2; [|lia].
    replace (pre ++ v :: typ :: d :: r'') with ((pre ++ [v]) ++ typ :: d :: r'') by (rewrite <- app_assoc; reflexivity).
    replace (zlen pre + 2) with (zlen (pre ++ [v]) + 1) by (rewrite zlen_app, zlen_cons; change (zlen (@nil Z)) with 0; lia).
    rewrite rd_next. reflexivity.
  - replace (pre ++ v :: r) with ((pre ++ [v]) ++ r) by (rewrite <- app_assoc; reflexivity).
    replace (zlen pre + 1) with (zlen (pre ++ [v])) by (rewrite zlen_app, zlen_cons; change (zlen (@nil Z)) with 0; lia).
    apply IH.
Qed.
Fixpoint nl (l : list Z) (c k : Z) : res Z :=
  match l with [] => Ok 0 | v :: r => do c <- cnt1 v r c; if c =? k then Ok v else nl r c k end.
Lemma name_nl : forall l pre c k, name_loop is_str (pre ++ l) (zlen pre) (length l) c k = nl l c k.
Proof.
  induction l as [|v r IH]; intros pre c k; [reflexivity|].
  cbn [length name_loop nl]. rewrite rd_here. cbn [bind]. rewrite sig_count_eq.
  destruct (cnt1 v r c) as [c'| |]; cbn [bind]; auto.
  destruct (c' =? k); auto.
  replace (pre ++ v :: r) with ((pre ++ [v]) ++ r) by (rewrite <- app_assoc; reflexivity).
  replace (zlen pre + 1) with (zlen (pre ++ [v])) by (rewrite zlen_app, zlen_cons; change (zlen (@nil Z)) with 0; lia).
  apply IH.
Qed.

(** counting single words *)
Lemma cnt_str v r c : is_str v = true -> cnt1 v r c = Ok (c + 1).
Proof. intros H. unfold cnt1. destruct (str_colon _ H) as [-> _]. rewrite H. reflexivity. Qed.
Lemma cnt_mark v r c : mark_ok is_str v -> cnt1 v r c = Ok c.
Proof.
  intros (H & H1 & H2). unfold cnt1. rewrite H. fold COLON in H1.
  destruct (v =? COLON) eqn:E; [lia|]. rewrite andb_false_r. reflexivity.
Qed.
Lemma bar_mark : cnt1 (PN_NUM 124) = fun _ c => Ok c.
Proof. unfold cnt1. change (PN_NUM 124) with BAR. rewrite nstr_bar. reflexivity. Qed.
Lemma dot_mark : cnt1 (PN_NUM 46) = fun _ c => Ok c.
Proof. unfold cnt1. rewrite nstr_dot. reflexivity. Qed.
(** a default: the colon and the value together count nothing *)
Lemma cnt_colon d r c : cnt1 (PN_NUM 58) (d :: r) c = Ok (if is_str d then c - 1 else c).
Proof. unfold cnt1. change (PN_NUM 58) with COLON. rewrite nstr_colon. reflexivity. Qed.
Lemma cnt_dflt d r c : d <> PN_NUM 58 -> cnt1 d r c = Ok (if is_str d then c + 1 else c).
Proof.
  intros H. unfold cnt1. change (PN_NUM 58) with COLON in H.
  destruct (d =? COLON) eqn:E; [lia|]. rewrite andb_false_r. reflexivity.
Qed.

Definition pcount (i : item) : Z := if is_param i then 1 else 0.
Lemma ar_item i r c : item_ok is_str i -> ar (enc1 i ++ r) c = ar r (c + pcount i).
Proof.
  intros H. destruct i as [n d| |]; cbn [item_ok] in H.
  - destruct H as [Hn Hd]. unfold pcount. cbn [is_param].
    destruct d as [|t|d|t m]; cbn [enc1 app ar]; rewrite cnt_str by auto; cbn [bind ar].
    + reflexivity.
    + rewrite cnt_mark by auto. reflexivity.
    + rewrite cnt_colon. cbn [bind ar]. rewrite cnt_dflt by auto. cbn [bind]. destruct (is_str d); f_equal; lia.
    + destruct Hd. rewrite cnt_mark by auto. cbn [bind ar]. rewrite cnt_mark by auto. reflexivity.
  - cbn [enc1 app ar]. rewrite bar_mark. cbn [bind]. unfold pcount. cbn [is_param]. f_equal; lia.
  - cbn [enc1 app ar]. rewrite dot_mark. cbn [bind]. unfold pcount. cbn [is_param]. f_equal; lia.
Qed.
Lemma ar_enc : forall l c, Forall (item_ok is_str) l -> ar (enc l) c = Ok (c + zlen (params l)).
Proof.
  induction l as [|i l IH]; intros c H.
  - cbn. change (zlen (@nil item)) with 0. f_equal; lia.
  - unfold enc. cbn [map concat]. fold (enc l). rewrite ar_item by (apply Forall_inv in H; auto).
    rewrite IH by (apply Forall_inv_tail in H; auto).
    unfold params, pcount. cbn [filter]. destruct (is_param i); rewrite ?zlen_cons; f_equal; lia.
Qed.
Lemma mi_mark v r c : mark_ok is_str v -> mi (v :: r) c = mi r c.
Proof.
  intros (H & H1 & H2). cbn [mi]. rewrite H. change (PN_NUM 58) with COLON in H1. change (PN_NUM 124) with BAR in H2.
  destruct (v =? COLON) eqn:E; [lia|]. destruct (v =? BAR) eqn:E2; [lia|]. rewrite !andb_false_r. reflexivity.
Qed.
Lemma mi_str v r c : is_str v = true -> mi (v :: r) c = mi r (c + 1).
Proof. intros H. cbn [mi]. destruct (str_colon _ H) as [-> ->]. rewrite H. reflexivity. Qed.
Lemma mi_enc : forall l c, Forall (item_ok is_str) l -> mi (enc l) c = Ok (c + required l).
Proof.
  induction l as [|i l IH]; intros c H.
  - cbn. f_equal; lia.
  - unfold enc. cbn [map concat]. fold (enc l).
    pose proof (Forall_inv H) as Hi. apply Forall_inv_tail in H.
    destruct i as [n d| |]; cbn [item_ok] in Hi.
    + destruct Hi as [Hn Hd].
      destruct d as [|t|d|t m]; cbn [enc1 app required]; rewrite mi_str by auto.
      * rewrite IH by auto. f_equal; lia.
      * rewrite mi_mark by auto. rewrite IH by auto. f_equal; lia.
      * cbn [mi]. change (PN_NUM 58) with COLON. rewrite nstr_colon, colon_int, Z.eqb_refl.
        change (COLON =? BAR) with false. cbn [andb]. f_equal; lia.
      * destruct Hd. rewrite !mi_mark by auto. rewrite IH by auto. f_equal; lia.
    + cbn [enc1 app mi required]. change (PN_NUM 124) with BAR. rewrite nstr_bar, bar_int, Z.eqb_refl. cbn [andb]. f_equal; lia.
    + cbn [enc1 app mi required]. rewrite nstr_dot.
      change (PN_IS_INT (PN_NUM 46) && (PN_NUM 46 =? BAR)) with false.
      change (PN_IS_INT (PN_NUM 46) && (PN_NUM 46 =? COLON)) with false. cbn iota. rewrite IH by auto. reflexivity.
Qed.

(** the words found for parameter number k: its first word and what follows *)
Lemma al_skip i r c k : item_ok is_str i -> c < k -> (is_param i = true -> c + 1 < k) ->
  al (enc1 i ++ r) c k = al r (c + pcount i) k /\ nl (enc1 i ++ r) c k = nl r (c + pcount i) k.
Proof.
  intros H Hc Hk.
  assert (NE : forall a, a < k -> (a =? k) = false) by (intros; lia).
  destruct i as [n d| |]; cbn [item_ok] in H; unfold pcount; cbn [is_param] in *.
  - destruct H as [Hn Hd]. specialize (Hk eq_refl).
    destruct d as [|t|d|t m]; cbn [enc1 app al nl]; rewrite !cnt_str by auto; cbn [bind]; rewrite !NE by lia; cbn [al nl].
    + auto.
    + rewrite !cnt_mark by auto. cbn [bind]. rewrite !NE by lia. auto.
    + rewrite !cnt_colon. cbn [bind]. rewrite !NE by (destruct (is_str d); lia). cbn [al nl].
      rewrite !cnt_dflt by auto. cbn [bind]. rewrite !NE by (destruct (is_str d); lia).
      replace (if is_str d then (if is_str d then c + 1 - 1 else c + 1) + 1 else if is_str d then c + 1 - 1 else c + 1)
        with (c + 1) by (destruct (is_str d); lia). auto.
    + destruct Hd. rewrite !cnt_mark by auto. cbn [bind]. rewrite !NE by lia. cbn [al nl].
      rewrite !cnt_mark by auto. cbn [bind]. rewrite !NE by lia. auto.
  - cbn [enc1 app al nl]. rewrite bar_mark. cbn [bind]. rewrite !NE by lia. rewrite Z.add_0_r. auto.
  - cbn [enc1 app al nl]. rewrite dot_mark. cbn [bind]. rewrite !NE by lia. rewrite Z.add_0_r. auto.
Qed.
(** the words of the parameter as sig_at cuts them out *)
Definition cut (n : Z) (d : deco) (rest : list Z) : list Z :=
  match d with
  | Plain => match rest with w :: _ => if PN_IS_INT w then [n; w] else [n] | [] => [n] end
  | Typed t => if PN_IS_INT t then [n; t] else [n]
  | Default d => [n; PN_NUM 58; d]
  | Modified t _ => if PN_IS_INT t then [n; t] else [n]
  end.
Lemma no_colon_first : forall l, Forall (item_ok is_str) l -> forall w r, enc l = w :: r -> w <> PN_NUM 58.
Proof.
  intros l H w r E. destruct l as [|i l]; [discriminate|]. unfold enc in E. cbn [map concat] in E.
  apply Forall_inv in H. destruct i as [n d| |]; cbn [item_ok] in H.
  - destruct H as [Hn _].
    destruct d; cbn [enc1 app] in E; injection E as <- _; intros ->;
      change (PN_NUM 58) with COLON in Hn; rewrite nstr_colon in Hn; discriminate.
  - cbn [enc1 app] in E. injection E as <- _. discriminate.
  - cbn [enc1 app] in E. injection E as <- _. discriminate.
Qed.
Lemma al_hit n d l c : item_ok is_str (Param n d) -> Forall (item_ok is_str) l ->
  al (enc1 (Param n d) ++ enc l) c (c + 1) = Ok (cut n d (enc l)) /\ nl (enc1 (Param n d) ++ enc l) c (c + 1) = Ok n.
Proof.
  intros [Hn Hd] Hl.
  assert (T : forall t r, mark_ok is_str t -> at1 n (t :: r) = Ok (if PN_IS_INT t then [n; t] else [n])).
  { intros t r (A & B & C). cbn [at1]. change (PN_NUM 58) with COLON in B. destruct (t =? COLON) eqn:E; [lia|].
    destruct (PN_IS_INT t); auto. }
  destruct d as [|t|d|t m]; cbn [enc1 app al nl]; rewrite cnt_str by auto; cbn [bind]; rewrite Z.eqb_refl; split; auto; cbn [cut].
  - destruct (enc l) as [|w r] eqn:E; auto. cbn [at1]. pose proof (no_colon_first l Hl w r E) as W.
    change (PN_NUM 58) with COLON in W. destruct (w =? COLON) eqn:E2; [lia|]. destruct (PN_IS_INT w); auto.
  - apply T. apply Hd.
  - apply T. apply Hd.
Qed.
Lemma al_enc : forall l c k n d, Forall (item_ok is_str) l -> 0 <= k ->
  nth_error (params l) (Z.to_nat k) = Some (Param n d) ->
  exists pre post, l = pre ++ Param n d :: post /\ zlen (params pre) = k /\
    al (enc l) c (c + 1 + k) = Ok (cut n d (enc post)) /\ nl (enc l) c (c + 1 + k) = Ok n.
Proof.
  induction l as [|i l IH]; intros c k n d H Hk E.
  - destruct (Z.to_nat k); discriminate.
  - pose proof (Forall_inv H) as Hi. apply Forall_inv_tail in H.
    unfold params in E. cbn [filter] in E. fold (params l) in E.
    unfold enc. cbn [map concat]. fold (enc l).
    destruct (is_param i) eqn:P.
    + destruct (Z.eq_dec k 0) as [->|Nk].
      * cbn in E. injection E as ->. exists [], l. split; [reflexivity|]. split; [reflexivity|].
        replace (c + 1 + 0) with (c + 1) by lia. apply al_hit; auto.
      * replace (Z.to_nat k) with (S (Z.to_nat (k - 1))) in E by lia. cbn [nth_error] in E.
        destruct (IH (c + 1) (k - 1) n d H ltac:(lia) E) as (pre & post & -> & Lp & A & B).
        exists (i :: pre), post. split; [reflexivity|]. split.
        { unfold params. cbn [filter]. rewrite P, zlen_cons. fold (params pre). lia. }
        destruct (al_skip i (enc (pre ++ Param n d :: post)) c (c + 1 + k) Hi ltac:(lia) ltac:(lia)) as [-> ->].
        unfold pcount. rewrite P. replace (c + 1 + k) with (c + 1 + 1 + (k - 1)) by lia. auto.
    + destruct (IH c k n d H Hk E) as (pre & post & -> & Lp & A & B).
      exists (i :: pre), post. split; [reflexivity|]. split.
      { unfold params. cbn [filter]. rewrite P. exact Lp. }
      destruct (al_skip i (enc (pre ++ Param n d :: post)) c (c + 1 + k) Hi ltac:(lia) ltac:(congruence)) as [-> ->].
      unfold pcount. rewrite P. rewrite Z.add_0_r. auto.
Qed.
Lemma al_none : forall l c k, Forall (item_ok is_str) l -> c + zlen (params l) < k ->
  al (enc l) c k = Ok [] /\ nl (enc l) c k = Ok 0.
Proof.
  induction l as [|i l IH]; intros c k H E; [auto|].
  pose proof (Forall_inv H) as Hi. apply Forall_inv_tail in H.
  unfold params in E. cbn [filter] in E. fold (params l) in E. pose proof (zlen_nonneg (params l)).
  unfold enc. cbn [map concat]. fold (enc l).
  destruct (al_skip i (enc l) c k Hi) as [-> ->].
  - destruct (is_param i); rewrite ?zlen_cons in E; lia.
  - intros P. rewrite P, zlen_cons in E. lia.
  - apply IH; auto. unfold pcount. destruct (is_param i); rewrite ?zlen_cons in E; lia.
Qed.
End P.

(** ** Theorems *)
(** The arity is the number of parameters. *)
Theorem C38_arity : forall is_str l, strings_are_objects is_str -> Forall (item_ok is_str) l ->
  sig_arity is_str (enc l) = Ok (zlen (params l)).
Proof.
  intros is_str l SO H. unfold sig_arity. change (enc l) with ([] ++ enc l) at 1. change 0 with (zlen (@nil Z)) at 1.
  rewrite arity_ar, ar_enc; auto.
Qed.
(** The minimum is the number of required leading parameters. *)
Theorem C38_minargs : forall is_str l, strings_are_objects is_str -> Forall (item_ok is_str) l ->
  sig_minargs is_str (enc l) = Ok (required l) /\ 0 <= required l <= zlen (params l).
Proof.
  intros is_str l SO H. split.
  - unfold sig_minargs. change (enc l) with ([] ++ enc l) at 1. change 0 with (zlen (@nil Z)) at 1.
    rewrite minargs_mi, mi_enc; auto.
  - clear H SO. induction l as [|i l IH]; [change (zlen (params [])) with 0; cbn [required]; lia|].
    unfold params. cbn [filter]. fold (params l). pose proof (zlen_nonneg (params l)).
    destruct i as [n d| |]; [destruct d| |]; cbn [is_param required]; rewrite ?zlen_cons; lia.
Qed.
(** The name at a position is that of the parameter, and nothing beyond the last. *)
Theorem C38_names : forall is_str l k, strings_are_objects is_str -> Forall (item_ok is_str) l -> 0 <= k ->
  (forall n d, nth_error (params l) (Z.to_nat k) = Some (Param n d) -> sig_name_at is_str (enc l) k = Ok n) /\
  (zlen (params l) <= k -> sig_name_at is_str (enc l) k = Ok 0).
Proof.
  intros is_str l k SO H Hk. 
  replace (sig_name_at is_str (enc l) k) with (nl is_str (enc l) (-1) k) by (symmetry; exact (name_nl is_str (enc l) [] (-1) k)).
  split.
  - intros n d E. destruct (al_enc is_str SO l (-1) k n d H Hk E) as (pre & post & _ & _ & _ & B).
    replace (-1 + 1 + k) with k in B by lia. exact B.
  - intros E. apply al_none; auto. lia.
Qed.
(** A call is refused exactly when it gives at least one argument and their number is
    outside the bounds. *)
Theorem C38_accepts : forall is_str l STR0 args, strings_are_objects is_str -> Forall (item_ok is_str) l ->
  (call_args is_str STR0 (enc l) args = Ok None <->
   args <> [] /\ ~ (required l <= zlen args <= zlen (params l))).
Proof.
  intros is_str l STR0 args SO H. unfold call_args. rewrite C38_arity by auto. cbn [bind].
  destruct (C38_minargs is_str l SO H) as [-> B]. cbn [bind]. unfold sig_check.
  assert (Z : zlen args > 0 <-> args <> []).
  { destruct args as [|a args]; [change (zlen (@nil Z)) with 0; split; [lia|congruence]|].
    rewrite zlen_cons. pose proof (zlen_nonneg args). split; [discriminate|lia]. }
  destruct (zlen args >? 0) eqn:E.
  - assert (args <> []) by (apply Z; lia).
    destruct (zlen args <? required l) eqn:E1; [split; [intros _; split; auto; lia|auto]|].
    destruct (zlen args >? zlen (params l)) eqn:E2; [split; [intros _; split; auto; lia|auto]|].
    split; [|lia].
    destruct (fill_loop _ _ _ _ _ _ _); cbn [bind]; discriminate.
  - assert (~ args <> []) by (rewrite <- Z; lia).
    split; [|tauto]. destruct (fill_loop _ _ _ _ _ _ _); cbn [bind]; discriminate.
Qed.
(** The claim at full strength fails for calls without arguments: they are never
    refused, even when parameters are required. *)
Theorem C38_empty_call_refuted : exists is_str l STR0, strings_are_objects is_str /\ Forall (item_ok is_str) l /\
  ~ (required l <= zlen (@nil Z) <= zlen (params l)) /\
  call_args is_str STR0 (enc l) [] = Ok (Some [PN_ZERO]).
Proof.
  exists (fun v => v =? 65536), [Param 65536 (Typed (PN_NUM 78))], 65552. repeat split.
  - intros v E. apply Z.eqb_eq in E. subst. reflexivity.
  - constructor; [|constructor]. cbn. repeat split; discriminate.
  - vm_compute. intros [A _]. apply A. reflexivity.
Qed.
(** the value a parameter takes when the argument is missing *)
Definition zero_of (STR0 t : Z) : Z :=
  let c := PN_INT t mod 256 in if (c =? 78) || (c =? 73) then PN_ZERO else if c =? 83 then STR0 else PN_NIL.
Definition missing (STR0 : Z) (d : deco) : option Z :=
  match d with
  | Default v => Some v
  | Typed t | Modified t _ => if PN_IS_INT t then Some (zero_of STR0 t) else None
  | Plain => None
  end.
Lemma fill_one_ok is_str l STR0 k n d v : strings_are_objects is_str -> Forall (item_ok is_str) l -> 0 <= k ->
  nth_error (params l) (Z.to_nat k) = Some (Param n d) -> missing STR0 d = Some v ->
  fill_one is_str STR0 (enc l) k = Ok (Some v).
Proof.
  intros SO H Hk E M. destruct (al_enc is_str SO l (-1) k n d H Hk E) as (pre & post & _ & _ & A & _).
  replace (-1 + 1 + k) with k in A by lia.
  unfold fill_one. replace (sig_at is_str (enc l) k) with (al is_str (enc l) (-1) k) by (symmetry; exact (at_al is_str (enc l) [] (-1) k)).
  rewrite A. cbn [bind].
  destruct d as [|t|d|t m]; cbn [cut missing] in *; [discriminate| | |].
  - destruct (PN_IS_INT t); [|discriminate]. change (zlen [n; t] =? 3) with false. cbn iota. change (rd [n; t] 1) with (Ok t). cbn [bind]. unfold type_default, zero_of in *.
    injection M as <-. destruct (PN_INT t mod 256 =? 78), (PN_INT t mod 256 =? 73); reflexivity.
  - change (zlen [n; PN_NUM 58; d] =? 3) with true. cbn iota. change (rd [n; PN_NUM 58; d] 2) with (Ok d). cbn [bind]. congruence.
  - destruct (PN_IS_INT t); [|discriminate]. change (zlen [n; t] =? 3) with false. cbn iota. change (rd [n; t] 1) with (Ok t). cbn [bind]. unfold type_default, zero_of in *.
    injection M as <-. destruct (PN_INT t mod 256 =? 78), (PN_INT t mod 256 =? 73); reflexivity.
Qed.
(** Arguments that are not given take the declared default or the zero of the declared
    type, in order, and the given ones are passed unchanged; for every accepted call
    whose missing parameters all have a default or a type. *)
Theorem C38_defaults : forall is_str l STR0 args vals, strings_are_objects is_str -> Forall (item_ok is_str) l ->
  (args = [] \/ required l <= zlen args) -> zlen args <= zlen (params l) ->
  map (fun p => match p with Param _ d => missing STR0 d | _ => None end) (skipn (length args) (params l)) = map Some vals ->
  call_args is_str STR0 (enc l) args = Ok (Some (args ++ vals)).
Proof.
  intros is_str l STR0 args vals SO H Hr Ha M. unfold call_args. rewrite C38_arity by auto. cbn [bind].
  destruct (C38_minargs is_str l SO H) as [-> B]. cbn [bind].
  assert (C : sig_check (required l) (zlen (params l)) (zlen args) = false).
  { unfold sig_check. destruct Hr as [->|Hr]; [reflexivity|].
    destruct (zlen args >? 0) eqn:E; auto. destruct (zlen args <? required l) eqn:E2; lia. }
  rewrite C.
  assert (F : forall vals done i, zlen done = i ->
            map (fun p => match p with Param _ d => missing STR0 d | _ => None end) (skipn (Z.to_nat i) (params l)) = map Some vals ->
            fill_loop is_str STR0 (enc l) i (length vals) done 0 = Ok (done ++ vals)).
  { clear M C Hr Ha args vals. induction vals as [|v vals IH]; intros done i L M.
    - cbn [length fill_loop]. rewrite app_nil_r. reflexivity.
    - pose proof (zlen_nonneg done).
      cbn [length fill_loop]. destruct (skipn (Z.to_nat i) (params l)) as [|p ps] eqn:Ep; [discriminate|].
      cbn [map] in M. assert (M1 : match p with Param _ d => missing STR0 d | _ => None end = Some v) by congruence.
      assert (M2 : map (fun p => match p with Param _ d => missing STR0 d | _ => None end) ps = map Some vals) by congruence.
      assert (N : nth_error (params l) (Z.to_nat i) = Some p).
      { rewrite <- (firstn_skipn (Z.to_nat i) (params l)), Ep.
        assert (Lf : length (firstn (Z.to_nat i) (params l)) = Z.to_nat i).
        { apply firstn_length_le. destruct (Nat.le_gt_cases (Z.to_nat i) (length (params l))); auto.
          rewrite skipn_all2 in Ep by lia. discriminate. }
        rewrite nth_error_app2 by lia. rewrite Lf, Nat.sub_diag. reflexivity. }
      destruct p as [n d| |]; try discriminate.
      rewrite (fill_one_ok is_str l STR0 i n d v) by (auto; lia). cbn [bind].
      rewrite (IH (done ++ [v])); [rewrite <- app_assoc; reflexivity| |].
      + rewrite zlen_app, zlen_cons. change (zlen (@nil Z)) with 0. lia.
      + rewrite <- M2. f_equal. replace (Z.to_nat (i + 1)) with (S (Z.to_nat i)) by lia.
        clear -Ep. revert Ep. generalize (params l) as q. generalize (Z.to_nat i) as m.
        induction m as [|m IH]; intros q E; [destruct q; [discriminate|]; cbn in *; congruence|].
        destruct q; [discriminate|]. cbn [skipn] in *. apply IH in E. destruct q; auto. }
  specialize (F vals args (zlen args) eq_refl).
  assert (La : Z.to_nat (zlen args) = length args) by (unfold zlen; lia).
  rewrite La in F. specialize (F M).
  assert (Lv : length vals = Z.to_nat (zlen (params l) - zlen args)).
  { apply (f_equal (@length _)) in M. rewrite !map_length, skipn_length in M. unfold zlen in *. lia. }
  rewrite <- Lv, F. reflexivity.
Qed.
(** Without the restrictions the claims fail: an optional parameter without a type
    reads uninitialised memory when it is missing; *)
Theorem C38_untyped_optional_refuted : exists is_str l STR0 args, strings_are_objects is_str /\ Forall (item_ok is_str) l /\
  required l <= zlen args <= zlen (params l) /\ call_args is_str STR0 (enc l) args = UB.
Proof.
  exists (fun v => (v =? 65536) || (v =? 65552)), [Param 65536 Plain; Bar; Param 65552 Plain], 65568, [PN_NUM 5]. repeat split.
  - intros v E. apply orb_prop in E. destruct E as [E|E]; apply Z.eqb_eq in E; subst; reflexivity.
  - repeat constructor.
  - vm_compute. discriminate.
  - vm_compute. discriminate.
Qed.
(** and a default value that is the integer 58 hides the parameter that follows it. *)
Theorem C38_colon_default_refuted : exists is_str l, strings_are_objects is_str /\
  zlen (params l) = 2 /\ sig_arity is_str (enc l) = Ok 1.
Proof.
  exists (fun v => (v =? 65536) || (v =? 65552)), [Param 65536 (Default (PN_NUM 58)); Param 65552 Plain]. repeat split.
  intros v E. apply orb_prop in E. destruct E as [E|E]; apply Z.eqb_eq in E; subst; reflexivity.
Qed.

(** A named argument finds the position of the parameter, when no earlier default
    value is a string (and the name is not one of the earlier words). *)
Definition plain_default (is_str : Z -> bool) (i : item) : Prop :=
  match i with Param _ (Default d) => is_str d = false | _ => True end.
Lemma find_skip is_str name : strings_are_objects is_str -> is_str name = true ->
  forall i r idx, item_ok is_str i -> plain_default is_str i -> (forall n d, i = Param n d -> n <> name) ->
  find_loop is_str (enc1 i ++ r) name idx = find_loop is_str r name (idx + pcount i).
Proof.
  intros SO Hn i r idx Hi Hd Hne.
  assert (K : forall w x r', is_str w = false -> find_loop is_str (w :: r') name x = find_loop is_str r' name x).
  { intros w x r' Hw. cbn [find_loop]. destruct (w =? name) eqn:E; [apply Z.eqb_eq in E; congruence|]. rewrite Hw. reflexivity. }
  destruct i as [n d| |]; cbn [item_ok] in Hi; unfold pcount; cbn [is_param].
  - destruct Hi as [Sn Sd]. specialize (Hne n d eq_refl).
    assert (K1 : forall x r', find_loop is_str (n :: r') name x = find_loop is_str r' name (x + 1)).
    { intros. cbn [find_loop]. destruct (n =? name) eqn:E; [lia|]. rewrite Sn. reflexivity. }
    destruct d as [|t|d|t m]; cbn [enc1 app]; rewrite K1; auto.
    + rewrite K by apply Sd. reflexivity.
    + cbn [plain_default] in Hd. rewrite K by (apply (nstr_colon is_str SO)). rewrite K by auto. reflexivity.
    + rewrite K by apply Sd. rewrite K by apply Sd. reflexivity.
  - cbn [enc1 app]. rewrite K by (apply (nstr_bar is_str SO)). f_equal; lia.
  - cbn [enc1 app]. rewrite K by (apply (nstr_dot is_str SO)). f_equal; lia.
Qed.
Theorem C38_named : forall is_str pre n d post, strings_are_objects is_str ->
  Forall (item_ok is_str) (pre ++ Param n d :: post) -> Forall (plain_default is_str) pre ->
  (forall m e, In (Param m e) pre -> m <> n) ->
  sig_find is_str (enc (pre ++ Param n d :: post)) n = zlen (params pre).
Proof.
  intros is_str pre n d post SO H HD HN. unfold sig_find.
  assert (Sn : is_str n = true).
  { apply Forall_app in H. destruct H as [_ H]. apply Forall_inv in H. apply H. }
  rewrite <- (Z.add_0_l (zlen (params pre))). generalize 0 as idx.
  induction pre as [|i pre IH]; intros idx.
  - cbn [app]. unfold enc. cbn [map concat]. unfold params. cbn [filter]. change (zlen (@nil item)) with 0.
    destruct d; cbn [enc1 app find_loop]; rewrite Z.eqb_refl; lia.
  - cbn [app]. unfold enc. cbn [map concat]. fold (enc (pre ++ Param n d :: post)).
    cbn [app] in H. rewrite find_skip; auto.
    + rewrite IH.
      * unfold params, pcount. cbn [filter]. destruct (is_param i); rewrite ?zlen_cons; lia.
      * apply Forall_inv_tail in H; auto.
      * apply Forall_inv_tail in HD; auto.
      * intros m e I. eapply HN. right. eauto.
    + apply Forall_inv in H; auto.
    + apply Forall_inv in HD; auto.
    + intros m e ->. eapply HN. left. reflexivity.
Qed.
Theorem C38_named_refuted : exists is_str pre n d, strings_are_objects is_str /\
  Forall (item_ok is_str) (pre ++ [Param n d]) /\ (forall m e, In (Param m e) pre -> m <> n) /\
  zlen (params pre) = 1 /\ sig_find is_str (enc (pre ++ [Param n d])) n = 2.
Proof.
  exists (fun v => (v =? 65536) || (v =? 65552) || (v =? 65568)), [Param 65536 (Default 65568)], 65552, Plain.
  split; [|split; [|split; [|split; reflexivity]]].
  - intros v E. apply orb_prop in E. destruct E as [E|E]; [apply orb_prop in E; destruct E as [E|E]|]; apply Z.eqb_eq in E; subst; reflexivity.
  - constructor; [|constructor]. + split; [reflexivity|discriminate]. + split; reflexivity. + constructor.
  - intros m e [E|[]]. injection E as <- _. discriminate.
Qed.

(** ** Functions written in the language *)
(** the parameters a source parameter list declares *)
Definition declared (p : past) : list item :=
  match p with
  | PMsg x => [Param x Plain]
  | PPipe x y => [Param x Plain; Bar; Param y Plain]
  | PType x t => [Param x (Typed (PN_NUM t))]
  | PDef x v => [Param x (Default v)]
  | PPipeType x y _ t => [Param x Plain; Bar; Param y (Typed (PN_NUM t))]
  | PTypePipeType x t y u => [Param x (Typed (PN_NUM t)); Bar; Param y (Typed (PN_NUM u))]
  end.
Definition not_bar_then_type (p : past) : Prop := match p with PPipeType _ _ _ _ => False | _ => True end.
(** The signature compiled from a parameter list is that of the declared parameters. *)
Theorem C38_compiled : forall l, Forall not_bar_then_type l ->
  sig_compile l = enc (concat (map declared l)).
Proof.
  induction l as [|p l IH]; intros H; [reflexivity|].
  unfold sig_compile. cbn [map concat]. fold (sig_compile l). rewrite IH by (apply Forall_inv_tail in H; auto).
  unfold enc. rewrite map_app, concat_app. f_equal.
  apply Forall_inv in H. destruct p; try reflexivity. destruct H.
Qed.
(** Except for the form (x|y=t): the name y is lost. *)
Theorem C38_compiled_refuted : exists is_str p, strings_are_objects is_str /\
  Forall (item_ok is_str) (declared p) /\ zlen (params (declared p)) = 2 /\
  sig_arity is_str (sig_compile [p]) = Ok 1.
Proof.
  exists (fun v => (v =? 65536) || (v =? 65552)), (PPipeType 65536 65552 121 78). split; [|split; [|split; reflexivity]].
  - intros v E. apply orb_prop in E. destruct E as [E|E]; apply Z.eqb_eq in E; subst; reflexivity.
  - repeat constructor; discriminate.
Qed.

(** Example: (x, y=N | z:="s", w=S). *)
Example C38_example :
  let is_str := fun v => (65536 <=? v) && (v mod 16 =? 0) in
  let l := [Param 65536 Plain; Param 65552 (Typed (PN_NUM 78)); Bar; Param 65568 (Default 65600); Param 65584 (Typed (PN_NUM 83))] in
  Forall (item_ok is_str) l /\ sig_arity is_str (enc l) = Ok 4 /\ sig_minargs is_str (enc l) = Ok 2 /\
  call_args is_str 131072 (enc l) [PN_NUM 1; PN_NUM 2] = Ok (Some [PN_NUM 1; PN_NUM 2; 65600; 131072]) /\
  call_args is_str 131072 (enc l) [PN_NUM 1] = Ok None.
Proof. split; [repeat constructor; discriminate|]. repeat split. Qed.
