(** C66: which file [load name] finds, and what is done with it. *)
From Verif Require Import Base Arr DumpModel PropDump CompileModel VmModel SrcSpec CompileEq CompileTotal SyntaxModel TextSpec PropCompile PropCompile2 PropParse LoadModel.
From Coq Require Import ZifyBool.
Ltac Zify.zify_post_hook ::= Z.div_mod_to_equations.

(** ** Specification *)
(** the part of a name after its last slash *)
Fixpoint base_name (l : list Z) : list Z :=
  match l with
  | [] => []
  | _ :: l' => if existsb (Z.eqb 47) l then base_name l' else l
  end.
(** the paths looked at under one directory, in order: the name, the name with each
    extension, the last part of the name in a directory of that name *)
Definition exts : list (list Z) := [[46; 112; 110; 98]; [46; 112; 110]; [46; 115; 111]].
Definition shallow (dir name : list Z) : list (list Z) :=
  let f := dir ++ 47 :: name in f :: map (fun e => f ++ e) exts ++ [f ++ 47 :: base_name name].
(** and then that last part with each extension *)
Definition deep (dir name : list Z) : list (list Z) :=
  map (fun e => (dir ++ 47 :: name ++ 47 :: base_name name) ++ e) exts.
Definition tries (path : list (list Z)) (name : list Z) : list (bool * list Z) :=
  flat_map (fun dir => map (pair false) (shallow dir name) ++ map (pair true) (deep dir name)) path.
(** the first of them that is a regular file *)
Definition first_file (regular : list Z -> bool) (path : list (list Z)) (name : list Z) : option (bool * list Z) :=
  find (fun c => regular (snd c)) (tries path name).
(** names and directories without NUL; names without a dot *)
Definition plain (l : list Z) : Prop := ~ In 0 l.
Definition dotless (l : list Z) : Prop := ~ In 46 l.

(** ** Memory *)
Lemma cwr_at (a : cells) x b v i : i = zlen a -> cwr (a ++ x :: b) i v = Ok (a ++ Some v :: b).
Proof.
  intros ->. unfold cwr. rewrite zlen_app, zlen_cons. pose proof (zlen_nonneg a). pose proof (zlen_nonneg b).
  replace ((0 <=? zlen a) && (zlen a <? zlen a + (1 + zlen b))) with true by lia. f_equal. unfold zlen. rewrite Nat2Z.id.
  rewrite firstn_app, firstn_all, Nat.sub_diag. cbn [firstn]. rewrite app_nil_r. f_equal. f_equal.
  rewrite skipn_app, skipn_all2 by lia. replace (S (length a) - length a)%nat with 1%nat by lia. reflexivity.
Qed.
Lemma cput_at src : forall (a b c : cells) i, i = zlen a -> length b = length src -> cput (a ++ b ++ c) i src = Ok (a ++ map Some src ++ c).
Proof.
  induction src as [|v src IH]; intros a b c i Hi Hb; destruct b as [|x b]; try discriminate Hb; [reflexivity|].
  cbn [cput]. cbn [app]. rewrite (cwr_at a x (b ++ c) v i Hi). cbn [bind map].
  change (a ++ Some v :: b ++ c) with (a ++ [Some v] ++ b ++ c). rewrite app_assoc, (IH (a ++ [Some v]) b c); [rewrite <- app_assoc; reflexivity| |].
  - rewrite zlen_app, Hi. reflexivity.
  - injection Hb as ->. reflexivity.
Qed.
Lemma cput_end src : forall (m : cells) i, 0 <= i -> i <= zlen m -> zlen m < i + zlen src -> cput m i src = UB.
Proof.
  induction src as [|v src IH]; intros m i H0 H1 H2; [change (zlen (@nil Z)) with 0 in H2; lia|].
  cbn [cput]. unfold cwr. destruct (Z.ltb_spec i (zlen m)) as [L|L].
  - replace (0 <=? i) with true by lia. cbn [andb bind]. rewrite zlen_cons in H2.
    assert (Q : zlen (firstn (Z.to_nat i) m ++ Some v :: skipn (S (Z.to_nat i)) m) = zlen m).
    { unfold zlen in *. rewrite app_length, firstn_length. cbn [length]. rewrite skipn_length. lia. }
    apply IH; rewrite ?Q; lia.
  - rewrite andb_false_r. reflexivity.
Qed.
Lemma cstr_ok l r : plain l -> cstr (map Some l ++ Some 0 :: r) = Ok l.
Proof.
  induction l as [|x l IH]; intros P; [reflexivity|]. cbn [map app cstr]. rewrite IH by (intros Q; apply P; right; exact Q).
  destruct x; [exfalso; apply P; left; reflexivity | reflexivity | reflexivity].
Qed.
Lemma cstr_unset l r : plain l -> cstr (map Some l ++ None :: r) = UB.
Proof.
  induction l as [|x l IH]; intros P; [reflexivity|]. cbn [map app cstr]. rewrite IH by (intros Q; apply P; right; exact Q).
  destruct x; [exfalso; apply P; left; reflexivity | reflexivity | reflexivity].
Qed.
Lemma fresh_app a b : 0 <= a -> 0 <= b -> fresh_cells (a + b) = fresh_cells a ++ fresh_cells b.
Proof. intros A B. unfold fresh_cells. rewrite Z2Nat.inj_add by lia. apply repeat_app. Qed.
Lemma fresh_len {A} (l : list A) : length (fresh_cells (zlen l)) = length l.
Proof. unfold fresh_cells, zlen. rewrite repeat_length. lia. Qed.
Lemma fresh_1 : fresh_cells 1 = [None]. Proof. reflexivity. Qed.
Lemma plain_app a b : plain (a ++ b) <-> plain a /\ plain b.
Proof. unfold plain. rewrite in_app_iff. tauto. Qed.
Lemma zlen_fresh n : 0 <= n -> zlen (fresh_cells n) = n.
Proof. intros H. unfold zlen, fresh_cells. rewrite repeat_length. lia. Qed.

Lemma with_ext_ok str e : plain str -> plain e -> with_ext str e = Ok (str ++ e).
Proof.
  intros P Q. unfold with_ext. pose proof (zlen_nonneg str). pose proof (zlen_nonneg e).
  rewrite !fresh_app, fresh_1 by lia. rewrite <- app_assoc.
  (* first strcpy: str and its NUL, over the first [zlen str + 1] cells *)
  assert (C1 : exists b c, fresh_cells (zlen e) ++ [None] = b :: c /\ length c = length e).
  { destruct (fresh_cells (zlen e)) as [|x f] eqn:F; cbn [app].
    - exists None, []. split; [reflexivity|]. pose proof (fresh_len e) as L. rewrite F in L. exact L.
    - exists x, (f ++ [None]). split; [reflexivity|]. rewrite app_length. pose proof (fresh_len e) as L. rewrite F in L. cbn in *. lia. }
  destruct C1 as (b & c & -> & LC).
  replace (fresh_cells (zlen str) ++ b :: c) with ([] ++ (fresh_cells (zlen str) ++ [b]) ++ c) by (rewrite <- app_assoc; reflexivity).
  rewrite cput_at; [|reflexivity|rewrite !app_length, fresh_len; reflexivity]. cbn [bind app].
  rewrite map_app, <- app_assoc. cbn [map app].
  replace (map Some str ++ Some 0 :: c) with (map Some str ++ (Some 0 :: c) ++ []) by (rewrite app_nil_r; reflexivity).
  rewrite cput_at; [|rewrite zlen_map; reflexivity|rewrite app_length; cbn; lia]. cbn [bind]. rewrite app_nil_r, map_app, app_assoc. cbn [map].
  rewrite cwr_at by (rewrite zlen_app, !zlen_map; reflexivity). cbn [bind]. rewrite <- map_app. apply cstr_ok. apply plain_app; auto.
Qed.
Lemma exts_plain e : In e exts -> plain e.
Proof. unfold exts, plain. cbn [In]. intros [<- | [<- | [<- | []]]]; cbn; lia. Qed.
Lemma find_extension_ok regular str : plain str -> forall es, (forall e, In e es -> plain e) ->
  find_extension regular es str = Ok (find (fun e => regular (str ++ e)) es).
Proof.
  intros P. induction es as [|e es IH]; intros Q; [reflexivity|]. cbn [find_extension find].
  rewrite with_ext_ok by (auto; apply Q; left; reflexivity). cbn [bind]. destruct (regular (str ++ e)); [reflexivity|]. apply IH. intros; apply Q; right; auto.
Qed.
Lemma find_map {A B} (f : A -> B) p l : find p (map f l) = option_map f (find (fun x => p (f x)) l).
Proof. induction l as [|x l IH]; [reflexivity|]. cbn. destruct (p (f x)); [reflexivity|exact IH]. Qed.
Lemma find_app {A} (p : A -> bool) l l' : find p (l ++ l') = match find p l with Some x => Some x | None => find p l' end.
Proof. induction l as [|x l IH]; [reflexivity|]. cbn. destruct (p x); auto. Qed.

Lemma strrchr_in c l : match strrchr c l with Some i => 0 <= i /\ existsb (Z.eqb c) l = true | None => existsb (Z.eqb c) l = false end.
Proof.
  induction l as [|x l IH]; [reflexivity|]. cbn [strrchr existsb]. destruct (strrchr c l) as [i|].
  - destruct IH as [A B]. rewrite B, orb_true_r. split; [lia | reflexivity].
  - rewrite IH, orb_false_r. destruct (Z.eqb_spec x c) as [-> | N].
    + rewrite Z.eqb_refl. split; [lia | reflexivity].
    + lia.
Qed.
Lemma file_part_ok l : file_part l = base_name l.
Proof.
  induction l as [|x l IH]; [reflexivity|]. unfold file_part in *. cbn [strrchr base_name existsb].
  pose proof (strrchr_in c_slash l) as K. destruct (strrchr c_slash l) as [i|].
  - destruct K as [A B]. change 47 with c_slash. rewrite B, orb_true_r, <- IH. unfold zdrop. replace (Z.to_nat (i + 1 + 1)) with (S (Z.to_nat (i + 1))) by lia. reflexivity.
  - change 47 with c_slash. rewrite K, orb_false_r. rewrite (Z.eqb_sym c_slash x). destruct (x =? c_slash); [|reflexivity]. rewrite <- IH. reflexivity.
Qed.
Lemma memchr_none c l : ~ In c l -> memchr c l = None.
Proof. induction l as [|x l IH]; intros N; [reflexivity|]. cbn. destruct (Z.eqb_spec x c) as [-> | K]; [exfalso; apply N; left; reflexivity|]. rewrite IH by (intros Q; apply N; right; exact Q). reflexivity. Qed.
Lemma memchr_some c l : In c l -> exists i, memchr c l = Some i /\ 0 <= i < zlen l.
Proof.
  induction l as [|x l IH]; intros N; [destruct N|]. cbn. rewrite zlen_cons. pose proof (zlen_nonneg l). destruct (Z.eqb_spec x c) as [-> | K]; [exists 0; split; [reflexivity | lia]|].
  destruct N as [N | N]; [contradiction|]. destruct (IH N) as (i & -> & I). exists (i + 1). split; [reflexivity | lia].
Qed.
Lemma base_plain l : plain l -> plain (base_name l).
Proof. induction l as [|x l IH]; intros P; [exact P|]. cbn [base_name]. destruct (existsb _ _); [|exact P]. apply IH. intros Q. apply P. right. exact Q. Qed.

Lemma take_name name : ztake (zlen name) (name ++ [0]) = name.
Proof. unfold ztake, zlen. rewrite Nat2Z.id, firstn_app, firstn_all, Nat.sub_diag. apply app_nil_r. Qed.

Lemma name_in (dir name : list Z) :
  cput (fresh_cells (zlen dir + 1 + zlen name + 1)) (zlen dir + 1) name = Ok (fresh_cells (zlen dir) ++ [None] ++ map Some name ++ [None]).
Proof.
  pose proof (zlen_nonneg dir). pose proof (zlen_nonneg name). rewrite !fresh_app, fresh_1 by lia. rewrite <- app_assoc.
  rewrite cput_at; [|rewrite zlen_app, zlen_fresh by lia; reflexivity | apply fresh_len]. rewrite <- app_assoc. reflexivity.
Qed.
Lemma dir_in (dir name : list Z) d :
  bind (cput (fresh_cells (zlen dir) ++ [None] ++ map Some name ++ [d]) 0 dir) (fun m => cwr m (zlen dir) c_slash)
  = Ok (map Some (dir ++ 47 :: name) ++ [d]).
Proof.
  change (fresh_cells (zlen dir) ++ [None] ++ map Some name ++ [d]) with ([] ++ fresh_cells (zlen dir) ++ [None] ++ map Some name ++ [d]).
  rewrite cput_at; [|reflexivity | apply fresh_len]. cbn [bind app].
  rewrite cwr_at by (rewrite zlen_map; reflexivity). rewrite map_app, <- app_assoc. reflexivity.
Qed.
Lemma bind_assoc {A B C} (r : res A) (f : A -> res B) (g : B -> res C) : bind (bind r f) g = bind r (fun x => bind (f x) g).
Proof. destruct r; reflexivity. Qed.

Definition outcome (name : list Z) (c : option (bool * list Z)) : res (list Z * option (list Z)) :=
  match c with
  | None => Ok (name ++ [0], None)
  | Some (false, f) => Ok (name ++ [0], Some f)
  | Some (true, _) => UB
  end.
Lemma find_in_ok regular dir name : plain dir -> plain name -> dotless name ->
  find_in regular dir (name ++ [0]) (zlen name) = outcome name (first_file regular [dir] name).
Proof.
  intros PD PN DN. unfold find_in. cbv zeta. pose proof (zlen_nonneg dir). pose proof (zlen_nonneg name).
  replace (zlen name <=? zlen (name ++ [0])) with true by (rewrite zlen_app; change (zlen [0]) with 1; lia). cbn [bind].
  rewrite take_name, name_in. cbn [bind]. rewrite memchr_none by exact DN. rewrite !app_assoc.
  rewrite cwr_at by (rewrite !zlen_app, zlen_fresh, zlen_map by lia; change (zlen [@None Z]) with 1; lia). cbn [bind]. rewrite <- !app_assoc.
  rewrite <- bind_assoc. rewrite (dir_in dir name (Some 0)). cbn [bind].
  assert (PF : plain (dir ++ 47 :: name)) by (apply plain_app; split; [exact PD|]; intros [Q|Q]; [lia | exact (PN Q)]).
  rewrite cstr_ok by exact PF. cbn [bind]. unfold first_file, tries. cbn [flat_map]. rewrite app_nil_r.
  unfold shallow. cbv zeta. cbn [map app]. cbn [find snd].
  destruct (regular (dir ++ 47 :: name)); [reflexivity|].
  change pn_loader_extensions with exts. rewrite find_extension_ok by (exact PF || exact exts_plain). cbn [bind].
  rewrite (map_app (pair false)), <- (app_assoc (map (pair false) _)), find_app, map_map, find_map. cbn [snd].
  destruct (find (fun e => regular ((dir ++ 47 :: name) ++ e)) exts) as [e|]; [reflexivity|]. cbn [option_map].
  rewrite (map_app Some). cbn [map]. rewrite cstr_ok by exact PN. cbn [bind app find snd]. rewrite file_part_ok. change c_slash with 47.
  set (r := (dir ++ 47 :: name) ++ 47 :: base_name name).
  destruct (regular r) eqn:R; [reflexivity|].
  assert (PR : plain r) by (apply plain_app; split; [exact PF|]; intros [Q|Q]; [lia | exact (base_plain name PN Q)]).
  rewrite find_extension_ok by (exact PR || exact exts_plain). cbn [bind]. unfold deep. rewrite map_map, find_map. cbn [snd].
  replace (dir ++ 47 :: name ++ 47 :: base_name name) with r by (unfold r; rewrite <- app_assoc; reflexivity).
  destruct (find (fun e => regular (r ++ e)) exts) as [e|]; [|reflexivity]. cbn [option_map outcome].
  set (rl := zlen dir + 1 + zlen name * 2 + 1). assert (RL : 0 <= rl) by (unfold rl; lia). pose proof (zlen_nonneg e).
  set (m := firstn _ _).
  assert (M : zlen m = rl + zlen e).
  { unfold m. unfold zlen at 1. rewrite firstn_length, app_length. unfold fresh_cells. rewrite repeat_length. unfold zlen in *. lia. }
  rewrite cput_end; [reflexivity | lia | lia | rewrite zlen_app, M; change (zlen [0]) with 1; lia].
Qed.

(** ** The search *)
Theorem C66_first_regular_file regular path name :
  Forall plain path -> plain name -> dotless name ->
  potion_find_file regular path (name ++ [0]) (zlen name)
  = match first_file regular path name with
    | None => Ok (name ++ [0], None)
    | Some (false, f) => Ok (name ++ [0], Some f)
    | Some (true, _) => UB
    end.
Proof.
  intros PP PN DN. unfold potion_find_file.
  replace (if zlen name =? 0 then _ else _) with (Ok (zlen name)).
  2:{ destruct (Z.eqb_spec (zlen name) 0) as [E|E]; [|reflexivity]. apply zlen_0 in E. subst. reflexivity. }
  cbn [bind]. change (match first_file regular path name with None => _ | Some _ => _ end) with (outcome name (first_file regular path name)).
  induction PP as [|dir path PD PP IH]; [reflexivity|]. cbn [find_file]. rewrite find_in_ok by assumption.
  unfold first_file, tries in *. cbn [flat_map] in *. rewrite app_nil_r. rewrite (find_app _ (map (pair false) (shallow dir name) ++ map (pair true) (deep dir name))).
  destruct (find (fun c : bool * list Z => regular (snd c)) (map (pair false) (shallow dir name) ++ map (pair true) (deep dir name))) as [[[|] f]|]; [reflexivity | reflexivity |]. cbn [outcome bind]. exact IH.
Qed.
(** a name with a dot in it: the directory name is left without its terminator *)
Theorem C66_dot_in_the_name_refuted regular dir path name :
  plain dir -> plain name -> In 46 name ->
  potion_find_file regular (dir :: path) (name ++ [0]) (zlen name) = UB.
Proof.
  intros PD PN DN. unfold potion_find_file. destruct name as [|c0 name0]; [destruct DN|]. set (name := c0 :: name0) in *.
  assert (NZ : 1 <= zlen name) by (unfold name; rewrite zlen_cons; pose proof (zlen_nonneg name0); lia).
  replace (zlen name =? 0) with false by lia. cbn [bind find_file]. unfold find_in. cbv zeta.
  pose proof (zlen_nonneg dir).
  replace (zlen name <=? zlen (name ++ [0])) with true by (rewrite zlen_app; change (zlen [0]) with 1; lia). cbn [bind].
  rewrite take_name, name_in. cbn [bind]. destruct (memchr_some 46 name DN) as (i & M & I). change c_dot with 46. rewrite M.
  rewrite wr_ok by (rewrite zlen_app; change (zlen [0]) with 1; lia). cbn [bind].

  rewrite <- bind_assoc. rewrite (dir_in dir name None). cbn [bind].
  rewrite cstr_unset; [reflexivity|]. apply plain_app; split; [exact PD|]; intros [Q|Q]; [lia | exact (PN Q)].
Qed.

(** a directory added to the path is searched last *)
Theorem C66_added_directory_is_last regular path dir name c :
  first_file regular path name = Some c -> first_file regular (loader_add path dir) name = Some c.
Proof. unfold first_file, tries, loader_add. intros H. rewrite flat_map_app, find_app, H. reflexivity. Qed.
Theorem C66_added_directory_is_searched regular path dir name :
  first_file regular path name = None -> first_file regular (loader_add path dir) name = first_file regular [dir] name.
Proof. unfold first_file, tries, loader_add. intros H. rewrite flat_map_app, find_app, H. reflexivity. Qed.

(** ** The extension *)
Lemma last_dot_at a b r : ~ In 46 b -> last_dot (a ++ 46 :: b ++ r) (length a + 1 + length b) = Ok (zlen a).
Proof.
  revert r. induction b as [|x b IH] using rev_ind; intros r N.
  - cbn [length app]. replace (length a + 1 + 0)%nat with (S (length a)) by lia. cbn [last_dot].
    rewrite app_nth2, Nat.sub_diag by lia. cbn [nth]. reflexivity.
  - rewrite app_length. cbn [length]. replace (length a + 1 + (length b + 1))%nat with (S (length a + 1 + length b)) by lia. cbn [last_dot].
    rewrite <- app_assoc. cbn [app].
    replace (nth (length a + 1 + length b) (a ++ 46 :: b ++ x :: r) 0) with x.
    + destruct (Z.eqb_spec x c_dot) as [-> | _]; [exfalso; apply N; rewrite in_app_iff; right; left; reflexivity|].
      apply IH. intros Q. apply N. rewrite in_app_iff. auto.
    + rewrite app_nth2 by lia. replace (length a + 1 + length b - length a)%nat with (S (length b)) by lia. cbn [nth].
      rewrite app_nth2, Nat.sub_diag by lia. reflexivity.
Qed.
Lemma last_dot_none f : ~ In 46 f -> forall k, (k <= length f)%nat -> last_dot f k = UB.
Proof.
  intros N. induction k as [|k IH]; intros L; [reflexivity|]. cbn [last_dot].
  destruct (Z.eqb_spec (nth k f 0) c_dot) as [E|E]; [|apply IH; lia]. exfalso. apply N. change 46 with c_dot. rewrite <- E. apply nth_In. lia.
Qed.
Lemma list_eqb_spec a b : list_eqb a b = true <-> a = b.
Proof. unfold list_eqb. destruct (list_eq_dec Z.eq_dec a b); split; congruence. Qed.
(** the extension is what follows the last dot of the path found, directories included *)
Theorem C66_by_extension d e : ~ In 46 e ->
  by_extension (d ++ 46 :: e) =
    Ok (if list_eq_dec Z.eq_dec d [] then LNoExt (d ++ 46 :: e)
        else if list_eq_dec Z.eq_dec e [112; 110] then LCode (d ++ 46 :: e)
        else if list_eq_dec Z.eq_dec e [112; 110; 98] then LCode (d ++ 46 :: e)
        else if list_eq_dec Z.eq_dec e [115; 111] then LDylib (d ++ 46 :: e)
        else LBadExt e).
Proof.
  intros N. unfold by_extension. replace (length (d ++ 46 :: e)) with (length d + 1 + length e)%nat by (rewrite app_length; cbn; lia).
  pose proof (last_dot_at d e [] N) as K. rewrite app_nil_r in K. rewrite K. cbn [bind].
  destruct (list_eq_dec Z.eq_dec d []) as [-> | ND]; [reflexivity|].
  replace (negb (zlen d =? 0)) with true. 2:{ destruct d; [contradiction|]. rewrite zlen_cons. pose proof (zlen_nonneg d). lia. }
  replace (zdrop (zlen d + 1) (d ++ 46 :: e)) with e.
  2:{ unfold zdrop, zlen. replace (Z.to_nat (Z.of_nat (length d) + 1)) with (length d + 1)%nat by lia.
      rewrite skipn_app, skipn_all2 by lia. replace (length d + 1 - length d)%nat with 1%nat by lia. reflexivity. }
  unfold list_eqb. cbn [tl ext_pn ext_pnb ext_so].
  repeat match goal with |- context [list_eq_dec Z.eq_dec e ?x] => destruct (list_eq_dec Z.eq_dec e x) end; reflexivity.
Qed.
(** a path without any dot: the byte before it is read *)
Theorem C66_no_extension_refuted f : ~ In 46 f -> by_extension f = UB.
Proof. intros N. unfold by_extension. rewrite last_dot_none by (auto; lia). reflexivity. Qed.

(** ** load *)
Theorem C66_load regular path name :
  Forall plain path -> plain name -> dotless name ->
  potion_load regular path (name ++ [0])
  = match first_file regular path name with
    | None => Ok (name ++ [0], LNotFound)
    | Some (false, f) => bind (by_extension f) (fun l => Ok (name ++ [0], l))
    | Some (true, _) => UB
    end.
Proof.
  intros PP PN DN. unfold potion_load. replace (zlen (name ++ [0]) - 1) with (zlen name) by (rewrite zlen_app; change (zlen [0]) with 1; lia).
  rewrite C66_first_regular_file by assumption. destruct (first_file regular path name) as [[[|] f]|]; reflexivity.
Qed.
(** the usual case: the first file found is the name with one of the extensions *)
Theorem C66_load_with_extension regular path name dir e :
  Forall plain path -> plain name -> dotless name ->
  first_file regular path name = Some (false, (dir ++ 47 :: name) ++ e) -> In e exts ->
  potion_load regular path (name ++ [0])
  = Ok (name ++ [0], if list_eq_dec Z.eq_dec e [46; 115; 111] then LDylib ((dir ++ 47 :: name) ++ e) else LCode ((dir ++ 47 :: name) ++ e)).
Proof.
  intros PP PN DN F IE. rewrite C66_load, F by assumption.
  assert (ND : dir ++ 47 :: name <> []) by (destruct dir; discriminate).
  unfold exts in IE. cbn [In] in IE. destruct IE as [<- | [<- | [<- | []]]].
  all: rewrite C66_by_extension by (cbn; lia); cbn [bind].
  all: destruct (list_eq_dec Z.eq_dec (dir ++ 47 :: name) []) as [Q|_]; [contradiction|].
  all: reflexivity.
Qed.

(** ** What a loaded file does *)
(** bytecode is recognised and then not run; anything else is run as a program text *)
Theorem C66_compiled_file_is_not_run f : pwf true f -> nodbl f -> dump_size f <= 8208 ->
  exists bytes, source_dumpbc f = Ok bytes /\
    forall fuel, (pdepth f <= fuel)%nat -> load_code fuel bytes = Ok CLNotRun.
Proof.
  intros W N S. destruct (C33_roundtrip_no_floats f W N S) as (b & D & L). exists b. split; [exact D|].
  intros fuel K. unfold load_code. rewrite L by exact K. reflexivity.
Qed.
Theorem C66_text_is_run fuel contents :
  zlen contents <= 8 \/ ztake 4 contents <> [112; 7; 8; 110] -> load_code fuel contents = Ok (CLRun contents).
Proof. intros H. unfold load_code. rewrite C34_reject by exact H. reflexivity. Qed.

(** from the name of a program to its value: find the file, parse, compile, run *)
Theorem C66_load_runs_the_program {W} (H : host W) str dbl junk chr0 is_str STR0 regular path name dir es contents :
  Forall plain path -> plain name -> dotless name ->
  first_file regular path name = Some (false, (dir ++ 47 :: name) ++ [46; 112; 110]) ->
  zlen contents <= 8 \/ ztake 4 contents <> [112; 7; 8; 110] ->
  names_ok str -> program_text str es contents ->
  program_ok chr0 is_str es -> few_all es = true ->
  ((forall w v, h_isref H w v = false) \/
   (forall l ps b, In (l, (ps, b)) (fns_all es) -> forall x, In x (sets_all b) -> memb x ps = true)) ->
  potion_load regular path (name ++ [0]) = Ok (name ++ [0], LCode ((dir ++ 47 :: name) ++ [46; 112; 110]))
  /\ (forall fuel, load_code fuel contents = Ok (CLRun contents))
  /\ exists tree m t, parses str dbl junk contents (PTree tree)
    /\ (exists K, forall k, (K <= k)%nat -> source_compile chr0 k tree = Ok (m, t))
    /\ forall d self w w' v, fits (t ++ [m]) d -> truth self = true -> means H es d self w w' v ->
       returns H (t ++ [m]) is_str STR0 (zlen t) self w w' v.
Proof.
  intros PP PN DN F HB NK T PO FW HL. split; [|split].
  - rewrite (C66_load_with_extension regular path name dir [46; 112; 110] PP PN DN F) by (right; left; reflexivity). reflexivity.
  - intros fuel. apply C66_text_is_run, HB.
  - exact (C60_text_to_value H str dbl junk chr0 is_str STR0 es contents NK T PO FW HL).
Qed.

(** ** The initializer of a shared library *)
Lemma first_dot_at a b fuel r : a <> [] -> ~ In 46 (tl a) -> (length a < fuel + 1)%nat -> b = 46 :: r ->
  first_dot fuel (a ++ b) 0 = Ok (zlen a).
Proof.
  intros NE N L ->. destruct a as [|x a]; [contradiction|]. cbn [tl] in N. clear NE.
  assert (K : forall q p fuel, a = p ++ q -> (length q < fuel)%nat -> first_dot fuel ((x :: a) ++ 46 :: r) (zlen p) = Ok (zlen (x :: a))).
  { induction q as [|y q IH]; intros p f E F; destruct f as [|f]; cbn [length] in *; try lia.
    - rewrite app_nil_r in E. subst p. cbn [first_dot]. rewrite zlen_app, !zlen_cons. pose proof (zlen_nonneg a). pose proof (zlen_nonneg r).
      replace (zlen a + 1 >? 1 + zlen a + (1 + zlen r)) with false by lia.
      replace (nth (Z.to_nat (zlen a + 1)) ((x :: a) ++ 46 :: r) 0) with c_dot.
      + rewrite Z.eqb_refl. f_equal. lia.
      + unfold zlen. replace (Z.to_nat (Z.of_nat (length a) + 1)) with (length (x :: a)) by (cbn; lia). rewrite app_nth2, Nat.sub_diag by lia. reflexivity.
    - cbn [first_dot]. assert (LA : zlen a = zlen p + 1 + zlen q) by (rewrite E, zlen_app, zlen_cons; lia).
      pose proof (zlen_nonneg p). pose proof (zlen_nonneg q). pose proof (zlen_nonneg r). rewrite zlen_app, !zlen_cons.
      replace (zlen p + 1 >? 1 + zlen a + (1 + zlen r)) with false by lia.
      replace (nth (Z.to_nat (zlen p + 1)) ((x :: a) ++ 46 :: r) 0) with y.
      + destruct (Z.eqb_spec y c_dot) as [-> | _]; [exfalso; apply N; rewrite E, in_app_iff; right; left; reflexivity|].
        replace (zlen p + 1 <=? 1 + zlen a + (1 + zlen r)) with true by lia.
        replace (zlen p + 1) with (zlen (p ++ [y])) by (rewrite zlen_app; reflexivity).
        rewrite <- zlen_cons with (x := x). apply IH; [rewrite <- app_assoc; exact E | lia].
      + rewrite E. unfold zlen. replace (Z.to_nat (Z.of_nat (length p) + 1)) with (S (length p)) by lia. cbn [app nth].
        rewrite <- app_assoc, app_nth2, Nat.sub_diag by lia. reflexivity. }
  change 0 with (zlen (@nil Z)). apply (K a []); [reflexivity | cbn [length] in L; lia].
Qed.
Lemma last_slash_at a b : ~ In 47 b -> last_slash (a ++ 47 :: b) (length a + 1 + length b) = Ok (zlen a).
Proof.
  intros N. assert (G : forall r, last_slash (a ++ 47 :: b ++ r) (length a + 1 + length b) = Ok (zlen a)); [|specialize (G []); rewrite app_nil_r in G; exact G].
  revert N. induction b as [|x b IH] using rev_ind; intros N r.
  - cbn [length app]. replace (length a + 1 + 0)%nat with (S (length a)) by lia. cbn [last_slash].
    rewrite app_nth2, Nat.sub_diag by lia. cbn [nth]. reflexivity.
  - rewrite app_length. cbn [length]. replace (length a + 1 + (length b + 1))%nat with (S (length a + 1 + length b)) by lia. cbn [last_slash].
    rewrite <- app_assoc. cbn [app].
    replace (nth (length a + 1 + length b) (a ++ 47 :: b ++ x :: r) 0) with x.
    + destruct (Z.eqb_spec x c_slash) as [-> | _]; [exfalso; apply N; rewrite in_app_iff; right; left; reflexivity|].
      apply IH. intros Q. apply N. rewrite in_app_iff. auto.
    + rewrite app_nth2 by lia. replace (length a + 1 + length b - length a)%nat with (S (length b)) by lia. cbn [nth].
      rewrite app_nth2, Nat.sub_diag by lia. reflexivity.
Qed.
(** "Potion_Init_" and the name of the file, when no directory has a dot in its name other
    than as the first character of the path *)
Theorem C66_initializer dir base ext :
  ~ In 46 (tl dir) -> ~ In 46 base -> ~ In 47 base ->
  initializer_name (dir ++ 47 :: base ++ 46 :: ext) = Ok ([80; 111; 116; 105; 111; 110; 95; 73; 110; 105; 116; 95] ++ base).
Proof.
  intros ND NB NS. unfold initializer_name.
  replace (dir ++ 47 :: base ++ 46 :: ext) with ((dir ++ 47 :: base) ++ 46 :: ext) by (rewrite <- app_assoc; reflexivity).
  rewrite (first_dot_at (dir ++ 47 :: base) (46 :: ext) _ ext).
  - cbn [bind]. replace (ztake (zlen (dir ++ 47 :: base)) ((dir ++ 47 :: base) ++ 46 :: ext)) with (dir ++ 47 :: base)
      by (unfold ztake, zlen; rewrite Nat2Z.id, firstn_app, firstn_all, Nat.sub_diag; cbn [firstn]; rewrite app_nil_r; reflexivity).
    replace (length (dir ++ 47 :: base)) with (length dir + 1 + length base)%nat by (rewrite app_length; cbn; lia).
    rewrite last_slash_at by exact NS. cbn [bind]. unfold zdrop, zlen. replace (Z.to_nat (Z.of_nat (length dir) + 1)) with (length dir + 1)%nat by lia.
    rewrite skipn_app, skipn_all2 by lia. replace (length dir + 1 - length dir)%nat with 1%nat by lia. reflexivity.
  - destruct dir; discriminate.
  - destruct dir as [|x dir]; cbn [app tl] in *; [exact NB|]. rewrite in_app_iff. intros [Q|[Q|Q]]; [auto | lia | auto].
  - rewrite !app_length. cbn [length]. lia.
  - reflexivity.
Qed.
(** a dot in a directory cuts the name: the initializer of
    "/opt/potion-0.3/lib/potion/readline.so" is looked up as "Potion_Init_potion-0" *)
Definition opt_dir : list Z := [47; 111; 112; 116; 47; 112; 111; 116; 105; 111; 110; 45; 48; 46; 51].
Definition s_readline : list Z := [114; 101; 97; 100; 108; 105; 110; 101].
Theorem C66_initializer_any_directory_refuted : exists dir base ext, ~ In 46 base /\ ~ In 47 base /\
  initializer_name (dir ++ 47 :: base ++ 46 :: ext) = Ok ([80; 111; 116; 105; 111; 110; 95; 73; 110; 105; 116; 95] ++ [112; 111; 116; 105; 111; 110; 45; 48])
  /\ base <> [112; 111; 116; 105; 111; 110; 45; 48].
Proof. exists (opt_dir ++ 47 :: s_lib), s_readline, [115; 111]. split; [cbn; lia|]. split; [cbn; lia|]. split; [reflexivity | discriminate]. Qed.

(** ** Concrete cases *)
(** load "foo" with only ./foo.pn present, and with only lib/potion/foo/foo.pn *)
Definition s_foo : list Z := [102; 111; 111].
Definition only (p : list Z) : list Z -> bool := fun q => if list_eq_dec Z.eq_dec q p then true else false.
Example C66_example_found :
  potion_load (only ([46; 47] ++ s_foo ++ [46; 112; 110])) (loader_init [47; 117]) (s_foo ++ [0])
  = Ok (s_foo ++ [0], LCode ([46; 47] ++ s_foo ++ [46; 112; 110])).
Proof. vm_compute. reflexivity. Qed.
Example C66_example_hypotheses :
  Forall plain (loader_init [47; 117]) /\ plain s_foo /\ dotless s_foo /\
  first_file (only ([46; 47] ++ s_foo ++ [46; 112; 110])) (loader_init [47; 117]) s_foo = Some (false, ([46] ++ 47 :: s_foo) ++ [46; 112; 110]).
Proof.
  split; [unfold loader_init; repeat (apply Forall_cons; [unfold plain, c_slash, c_dot; cbn; lia|]); apply Forall_nil|]. split; [unfold plain; cbn; lia|]. split; [unfold dotless; cbn; lia|]. vm_compute. reflexivity.
Qed.
(** the file is there, but loading it writes behind the end of the path *)
Theorem C66_package_file_refuted :
  exists f, first_file (only f) (loader_init [47; 117]) s_foo = Some (true, f)
  /\ potion_load (only f) (loader_init [47; 117]) (s_foo ++ [0]) = UB.
Proof. exists (s_lib ++ 47 :: s_foo ++ 47 :: s_foo ++ [46; 112; 110]). split; vm_compute; reflexivity. Qed.
(** a file without extension *)
Theorem C66_plain_file_refuted :
  potion_load (only (s_lib ++ 47 :: s_foo)) (loader_init [47; 117]) (s_foo ++ [0]) = UB
  /\ potion_load (only ([46; 47] ++ s_foo)) (loader_init [47; 117]) (s_foo ++ [0]) = Ok (s_foo ++ [0], LNoExt ([46; 47] ++ s_foo)).
Proof. split; vm_compute; reflexivity. Qed.
