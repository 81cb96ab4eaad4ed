(** Property C82: the text of a syntax tree. *)
From Coq Require Import ZifyBool String.
From Verif Require Import Base Arr WordModel BytesModel AstTextModel.
Ltac Zify.zify_post_hook ::= Z.div_mod_to_equations.

(** ** Specification *)
(** a syntax tree: every node has as many operands as its kind says *)
Fixpoint tree (v : val) : Prop :=
  match v with
  | VSrc p _ a => 0 <= p < 36 /\ zlen a = ast_size p /\
      (fix all l := match l with [] => True | x :: l => tree x /\ all l end) a
  | _ => True
  end.
(** an operand with its text *)
Notation opd := (val * list Z)%type.
Definition texts (f : val -> list Z) (a : list val) : list opd := map (fun x => (x, f x)) a.
(** the operands shown: nils at the end are left out, the first operand stays *)
Fixpoint drop_nils (a : list opd) : list opd :=
  match a with
  | [] => []
  | x :: a => match drop_nils a with [] => if is_nil (fst x) then [] else [x] | r => x :: r end
  end.
Definition trim (a : list opd) : list opd := match a with [] => [] | x :: a => x :: drop_nils a end.
(** one operand: strings in quotes, and a line break behind a tree from a later line *)
Definition one (o : opd) (line : Z) : list Z :=
  let (x, t) := o in
  (if quoted x then txt """" ++ t ++ txt """" else t) ++
  match x with VSrc _ l _ => if l >? line then [10] else [] | _ => [] end.
Definition line_after (o : opd) (line : Z) : Z := match fst o with VSrc _ l _ => Z.max l line | _ => line end.
Fixpoint operands (a : list opd) (line : Z) : list Z :=
  match a with
  | [] => []
  | [x] => one x line
  | x :: a => one x line ++ txt " " ++ operands a (line_after x line)
  end.
Definition node (p l : Z) (a : list opd) : list Z :=
  ast_name p ++ (if ast_size p >? 1 then txt " (" ++ operands a l ++ txt ")" else txt " " ++ operands a l).
(** the text one expects: the name, then the operands without the nils at the end *)
Fixpoint expected (v : val) : list Z :=
  match v with
  | VNil => txt "nil" | VStr s => s | VOther s => s
  | VSrc p l a => node p l (trim (texts expected a))
  end.
(** the text one gets: the nils are left out only where fewer than 16 characters remain *)
Definition cut_or_not (p l : Z) (a : list opd) : list Z :=
  if zlen (node p l (trim a)) <? 16 then node p l (trim a) else node p l a.
Fixpoint shown (v : val) : list Z :=
  match v with
  | VNil => txt "nil" | VStr s => s | VOther s => s
  | VSrc p l a => cut_or_not p l (texts shown a)
  end.
(** the addresses of moved buffers, lower half, are not small numbers: not below the length of the text *)
Fixpoint apart (addr : val -> list Z -> Z) (v : val) : Prop :=
  match v with
  | VSrc p l a => (forall T, zlen (node p l (texts shown a)) <= addr v T < two32) /\
      (fix all l := match l with [] => True | x :: l => apart addr x /\ all l end) a
  | _ => True
  end.

(** ** Proofs *)
Definition good (addr : list Z -> Z) (b : buf) : Prop :=
  match stub b with None => siz b = 16 /\ zlen (chars b) < 16 | Some w => 16 <= zlen (chars b) /\ exists T, w = addr T end.
Lemma put_chars addr b s : chars (put addr b s) = chars b ++ s.
Proof. unfold put. destruct (_ >? _); reflexivity. Qed.
Lemma put_good addr b s : good addr b -> good addr (put addr b s).
Proof.
  unfold good, put. intros G. pose proof (zlen_nonneg s). destruct (_ >? _) eqn:E; cbn [stub chars siz]; rewrite !zlen_app; destruct (stub b).
  - destruct G as (G & T). split; [lia|exact T].
  - split; [lia|eauto].
  - destruct G as (G & T). split; [lia|exact T].
  - lia.
Qed.
Lemma start_good addr p : 0 <= p < 36 -> good addr (potion_byte_str (ast_name p)).
Proof.
  intros H. assert (Q : forallb (fun p => (siz (potion_byte_str (ast_name (Z.of_nat p))) =? 16) && (zlen (ast_name (Z.of_nat p)) <? 16)) (seq 0 36) = true) by (vm_compute; reflexivity).
  rewrite forallb_forall in Q. assert (I : In (Z.to_nat p) (seq 0 36)) by (apply in_seq; lia). specialize (Q _ I). cbv beta in Q. rewrite Z2Nat.id in Q by lia.
  apply andb_true_iff in Q. destruct Q as (Q1 & Q2). apply Z.eqb_eq in Q1. apply Z.ltb_lt in Q2. split; assumption.
Qed.
Lemma len_good addr b : good addr b -> (zlen (chars b) < 16 /\ PN_STR_LEN b = zlen (chars b)) \/ (16 <= zlen (chars b) /\ exists T, PN_STR_LEN b = s32 (addr T)).
Proof. unfold good, PN_STR_LEN. destruct (stub b); intros H; [right|left]; [destruct H as (H & T & ->); eauto|tauto]. Qed.

(** one operand of the loop *)
Definition opd_put (addr : list Z -> Z) (t : list Z) (x : val) (b : buf) (line : Z) : buf * Z :=
  let b := if quoted x then put addr (put addr (put addr b [34]) t) [34] else put addr b t in
  match x with
  | VSrc _ l' _ => if l' >? line then (put addr b [10], l') else (b, line)
  | _ => (b, line)
  end.
Lemma opd_ok addr t x b line : good addr b ->
  let r := opd_put addr t x b line in good addr (fst r) /\ chars (fst r) = chars b ++ one (x, t) line /\ snd r = line_after (x, t) line.
Proof.
  intros G r. unfold r, opd_put, one, line_after. change (txt """") with [34].
  destruct x as [|s|s|p l a]; cbn [quoted fst snd]; [| | |destruct (l >? line) eqn:E; cbn [fst snd]];
    (split; [auto using put_good|split; [rewrite ?put_chars, ?app_nil_r, <- ?app_assoc; reflexivity|lia]]).
Qed.
Lemma sizes p : 0 <= p < 36 -> ast_size p = 1 \/ ast_size p = 2 \/ ast_size p = 3.
Proof.
  intros H. assert (Q : forallb (fun p => let n := ast_size (Z.of_nat p) in (n =? 1) || (n =? 2) || (n =? 3)) (seq 0 36) = true) by (vm_compute; reflexivity).
  rewrite forallb_forall in Q. assert (I : In (Z.to_nat p) (seq 0 36)) by (apply in_seq; lia). specialize (Q _ I). cbv beta in Q. rewrite Z2Nat.id in Q by lia. cbn zeta in Q. lia.
Qed.
Lemma loop_step text addr n i x rest out cut line :
  loop text addr n i (x :: rest) out cut line =
  let out := put addr out (txt " ") in
  let oc := if (i =? 0) && (n >? 1) then (put addr out (txt "("), cut)
            else if i >? 0 then (out, if is_nil x then (if cut =? 0 then PN_STR_LEN out else cut) else 0) else (out, cut) in
  let ol := opd_put addr (text x) x (fst oc) line in
  loop text addr n (i + 1) rest (if (i =? n - 1) && (n >? 1) then put addr (cut_at (fst ol) (snd oc)) (txt ")") else fst ol) (snd oc) (snd ol).
Proof.
  cbn [loop]. cbn zeta. unfold opd_put. destruct ((i =? 0) && (n >? 1)); cbn [fst snd].
  - destruct x as [|s|s|p l a]; try reflexivity. destruct (l >? line); reflexivity.
  - destruct (i >? 0); cbn [fst snd]; destruct x as [|s|s|p l a]; try reflexivity; destruct (l >? line); reflexivity.
Qed.

(** what the cut does: T is the text before the space that the nils follow, R what follows it *)
Lemma cut_ok addr b b' T R : good addr b -> chars b = T ++ txt " " -> chars b' = T ++ txt " " ++ R -> 0 < zlen R ->
  (forall U, zlen (T ++ txt " " ++ R ++ txt ")") <= addr U < two32) \/ zlen (T ++ txt ")") < 16 ->
  PN_STR_LEN b <> 0 /\
  chars (put addr (cut_at b' (PN_STR_LEN b)) (txt ")")) = if zlen (T ++ txt ")") <? 16 then T ++ txt ")" else T ++ txt " " ++ R ++ txt ")".
Proof.
  intros G C C' HR Hw. rewrite put_chars. change (txt " ") with [32] in *. change (txt ")") with [41] in *.
  pose proof (len_good _ _ G) as L. rewrite C in L. rewrite !zlen_app in *. change (zlen [32]) with 1 in *. change (zlen [41]) with 1 in *. pose proof (zlen_nonneg T) as HT.
  destruct L as [(L & ->)|(L & U & ->)].
  - replace (zlen T + 1 <? 16) with true by lia. split; [lia|]. f_equal. unfold cut_at. rewrite C'. rewrite !zlen_app. change (zlen [32]) with 1.
    replace (zlen T + 1 >? 0) with true by lia. replace (u32 (zlen T + 1)) with (zlen T + 1) by (unfold u32, two32; lia).
    replace (zlen T + 1 <? zlen T + (1 + zlen R)) with true by lia. cbn [chars].
    replace (Z.to_nat (zlen T + 1 - 1)) with (List.length T) by (unfold zlen; lia). rewrite firstn_app, Nat.sub_diag, firstn_all, firstn_O, app_nil_r. reflexivity.
  - replace (zlen T + 1 <? 16) with false by lia. destruct Hw as [Hw|Hw]; [|lia]. specialize (Hw U). split; [unfold s32, two32 in *; lia|].
    replace (T ++ [32] ++ R ++ [41]) with ((T ++ [32] ++ R) ++ [41]) by (rewrite <- !app_assoc; reflexivity). f_equal. rewrite <- C'. unfold cut_at.
    destruct (s32 (addr U) >? 0) eqn:E; [|reflexivity].
    replace (u32 (s32 (addr U))) with (addr U) by (unfold u32, s32, two32 in *; lia). rewrite C', !zlen_app. change (zlen [32]) with 1.
    replace (addr U <? zlen T + (1 + zlen R)) with false by lia. exact C'.
Qed.
Lemma no_cut b : cut_at b 0 = b.
Proof. reflexivity. Qed.
(** the text of a node whose operands have the texts [text] *)
Lemma node_ok text addr p l a : 0 <= p < 36 -> zlen a = ast_size p -> text VNil = txt "nil" ->
  (forall T, zlen (node p l (texts text a)) <= addr T < two32) \/ zlen (node p l (trim (texts text a))) < 16 \/ is_nil (last a (VStr [])) = false ->
  chars (loop text addr (ast_size p) 0 a (potion_byte_str (ast_name p)) 0 l) = cut_or_not p l (texts text a).
Proof.
  intros Hp Ha Hn Hw. set (n := ast_size p) in *. pose proof (start_good addr p Hp) as G0.
  set (b0 := potion_byte_str (ast_name p)) in *. assert (C0 : chars b0 = ast_name p) by reflexivity. clearbody b0.
  destruct (sizes p Hp) as [E|[E|E]]; fold n in E; rewrite E in *.
  - destruct a as [|x [|y a]]; [discriminate| |rewrite !zlen_cons in Ha; pose proof (zlen_nonneg a); lia].
    rewrite loop_step. cbn zeta. change ((0 =? 0) && (1 >? 1)) with false. change (0 >? 0) with false. change ((0 =? 1 - 1) && (1 >? 1)) with false. cbv iota. cbn [fst snd loop].
    pose proof (opd_ok addr (text x) x (put addr b0 (txt " ")) l (put_good _ _ _ G0)) as (_ & C & _). cbn zeta in C. rewrite C, put_chars, C0.
    unfold cut_or_not. cbn [texts map trim drop_nils]. assert (N : node p l [(x, text x)] = (ast_name p ++ txt " ") ++ one (x, text x) l).
    { unfold node. fold n. rewrite E. cbn [operands]. change (1 >? 1) with false. cbv iota. rewrite <- app_assoc. reflexivity. }
    rewrite N. destruct (_ <? _); reflexivity.
  - destruct a as [|x [|y [|z a]]]; [discriminate|discriminate| |rewrite !zlen_cons in Ha; pose proof (zlen_nonneg a); lia].
    rewrite loop_step. cbn zeta. change ((0 =? 0) && (2 >? 1)) with true. change ((0 =? 2 - 1) && (2 >? 1)) with false. cbv iota. cbn [fst snd].
    pose proof (opd_ok addr (text x) x (put addr (put addr b0 (txt " ")) (txt "(")) l (put_good _ _ _ (put_good _ _ _ G0))) as (G1 & C1 & L1). cbn zeta in G1, C1, L1.
    rewrite !put_chars, C0 in C1. set (b1 := opd_put _ _ _ _ _) in *. clearbody b1. rewrite L1. clear L1. destruct b1 as [b1 l1]. cbn [fst snd] in *. clear l1.
    set (l1 := line_after (x, text x) l) in *.
    rewrite loop_step. cbn zeta. change (0 + 1) with 1. change ((1 =? 0) && (2 >? 1)) with false. change (1 >? 0) with true. change ((1 =? 2 - 1) && (2 >? 1)) with true. change (0 =? 0) with true. cbv iota. cbn [fst snd loop].
    pose proof (put_good addr b1 (txt " ") G1) as G2. set (b2 := put addr b1 (txt " ")) in *.
    assert (C2 : chars b2 = chars b1 ++ txt " ") by apply put_chars. clearbody b2.
    pose proof (opd_ok addr (text y) y b2 l1 G2) as (G3 & C3 & _). cbn zeta in G3, C3. set (b3 := fst (opd_put addr (text y) y b2 l1)) in *. clearbody b3.
    assert (N2 : node p l [(x, text x); (y, text y)] = chars b1 ++ txt " " ++ one (y, text y) l1 ++ txt ")").
    { unfold node. fold n. rewrite E. cbn [operands]. change (2 >? 1) with true. cbv iota. rewrite C1. change (txt " (") with (txt " " ++ txt "("). rewrite <- !app_assoc. reflexivity. }
    assert (N1 : node p l [(x, text x)] = chars b1 ++ txt ")").
    { unfold node. fold n. rewrite E. cbn [operands]. change (2 >? 1) with true. cbv iota. rewrite C1. change (txt " (") with (txt " " ++ txt "("). rewrite <- !app_assoc. reflexivity. }
    unfold cut_or_not. cbn [texts map trim drop_nils fst] in *. destruct (is_nil y) eqn:Y.
    + rewrite N1, N2 in *. rewrite C2, <- app_assoc in C3. apply (cut_ok addr b2 b3 _ _ G2 C2 C3); [|destruct Hw as [Hw|[Hw|Hw]]; [left; exact Hw|right; exact Hw|cbn [last] in Hw; congruence]].
      destruct y; try discriminate. rewrite Hn. reflexivity.
    + rewrite no_cut, put_chars, C3, C2. rewrite N2, <- !app_assoc. destruct (_ <? _); reflexivity.
  - destruct a as [|x [|y [|z [|w a]]]]; [discriminate|discriminate|discriminate| |rewrite !zlen_cons in Ha; pose proof (zlen_nonneg a); lia].
    rewrite loop_step. cbn zeta. change ((0 =? 0) && (3 >? 1)) with true. change ((0 =? 3 - 1) && (3 >? 1)) with false. cbv iota. cbn [fst snd].
    pose proof (opd_ok addr (text x) x (put addr (put addr b0 (txt " ")) (txt "(")) l (put_good _ _ _ (put_good _ _ _ G0))) as (G1 & C1 & L1). cbn zeta in G1, C1, L1.
    rewrite !put_chars, C0 in C1. set (b1 := opd_put _ _ _ _ _) in *. clearbody b1. rewrite L1. clear L1. destruct b1 as [b1 l1]. cbn [fst snd] in *. clear l1.
    set (l1 := line_after (x, text x) l) in *.
    rewrite loop_step. cbn zeta. change (0 + 1) with 1. change ((1 =? 0) && (3 >? 1)) with false. change (1 >? 0) with true. change ((1 =? 3 - 1) && (3 >? 1)) with false. change (0 =? 0) with true. cbv iota. cbn [fst snd].
    pose proof (put_good addr b1 (txt " ") G1) as G2. set (b2 := put addr b1 (txt " ")) in *.
    assert (C2 : chars b2 = chars b1 ++ txt " ") by apply put_chars. clearbody b2.
    pose proof (opd_ok addr (text y) y b2 l1 G2) as (G3 & C3 & L2). cbn zeta in G3, C3, L2. set (b3 := opd_put addr (text y) y b2 l1) in *. clearbody b3. rewrite L2. clear L2.
    destruct b3 as [b3 l2]. cbn [fst snd] in *. clear l2. set (l2 := line_after (y, text y) l1) in *.
    set (c := if is_nil y then PN_STR_LEN b2 else 0). 
    rewrite loop_step. cbn zeta. change (1 + 1) with 2. change ((2 =? 0) && (3 >? 1)) with false. change (2 >? 0) with true. change ((2 =? 3 - 1) && (3 >? 1)) with true. cbv iota. cbn [fst snd loop].
    pose proof (put_good addr b3 (txt " ") G3) as G4. set (b4 := put addr b3 (txt " ")) in *.
    assert (C4 : chars b4 = chars b3 ++ txt " ") by apply put_chars. clearbody b4.
    pose proof (opd_ok addr (text z) z b4 l2 G4) as (_ & C5 & _). cbn zeta in C5. set (b5 := fst (opd_put addr (text z) z b4 l2)) in *. clearbody b5.
    assert (N3 : node p l [(x, text x); (y, text y); (z, text z)] = chars b3 ++ txt " " ++ one (z, text z) l2 ++ txt ")").
    { unfold node. fold n. rewrite E. cbn [operands]. change (3 >? 1) with true. cbv iota. rewrite C3, C2, C1. change (txt " (") with (txt " " ++ txt "("). rewrite <- !app_assoc. reflexivity. }
    assert (N2 : node p l [(x, text x); (y, text y)] = chars b3 ++ txt ")").
    { unfold node. fold n. rewrite E. cbn [operands]. change (3 >? 1) with true. cbv iota. rewrite C3, C2, C1. change (txt " (") with (txt " " ++ txt "("). rewrite <- !app_assoc. reflexivity. }
    assert (N1 : node p l [(x, text x)] = chars b1 ++ txt ")").
    { unfold node. fold n. rewrite E. cbn [operands]. change (3 >? 1) with true. cbv iota. rewrite C1. change (txt " (") with (txt " " ++ txt "("). rewrite <- !app_assoc. reflexivity. }
    unfold cut_or_not. cbn [texts map trim drop_nils fst] in *. destruct (is_nil z) eqn:Z; [destruct (is_nil y) eqn:Y|].
    + assert (C6 : chars b5 = chars b1 ++ txt " " ++ (one (y, text y) l1 ++ txt " " ++ one (z, text z) l2)) by (rewrite C5, C4, C3, C2, <- !app_assoc; reflexivity).
      assert (N3' : node p l [(x, text x); (y, text y); (z, text z)] = chars b1 ++ txt " " ++ (one (y, text y) l1 ++ txt " " ++ one (z, text z) l2) ++ txt ")").
      { rewrite N3, C3, C2, <- !app_assoc. reflexivity. }
      rewrite N1, N3' in *. destruct (cut_ok addr b2 b5 _ _ G2 C2 C6) as (Nz & Q); [|destruct Hw as [Hw|[Hw|Hw]]; [left; exact Hw|right; exact Hw|cbn [last] in Hw; congruence]|].
      { destruct y; try discriminate. rewrite Hn, !zlen_app. change (zlen (one (VNil, txt "nil") l1)) with 3.
        pose proof (zlen_nonneg (txt " ")). pose proof (zlen_nonneg (one (z, text z) l2)). lia. }
      subst c. cbv iota. replace (PN_STR_LEN b2 =? 0) with false by lia. exact Q.
    + rewrite N2, N3 in *. rewrite C4, <- app_assoc in C5. subst c. cbv iota. change (0 =? 0) with true. cbv iota. apply (cut_ok addr b4 b5 _ _ G4 C4 C5); [|destruct Hw as [Hw|[Hw|Hw]]; [left; exact Hw|right; exact Hw|cbn [last] in Hw; congruence]].
      destruct z; try discriminate. rewrite Hn. reflexivity.
    + rewrite no_cut, put_chars, C5, C4. rewrite N3, <- !app_assoc. destruct (is_nil y); destruct (_ <? _); reflexivity.
Qed.

(** ** The property *)
Lemma val_nested (P : val -> Prop) : P VNil -> (forall s, P (VStr s)) -> (forall s, P (VOther s)) -> (forall p l a, Forall P a -> P (VSrc p l a)) -> forall v, P v.
Proof.
  intros H1 H2 H3 H4. fix IH 1. intros [|s|s|p l a]; [exact H1|apply H2|apply H3|]. apply H4. induction a as [|x a I]; constructor; [apply IH|exact I].
Qed.
Lemma all_forall (P : val -> Prop) a : (fix all l := match l with [] => True | x :: l => P x /\ all l end) a -> Forall P a.
Proof. induction a as [|x a I]; [constructor|]. intros (H & K). constructor; auto. Qed.

(** The text of every tree is exactly [shown]: its name and its operands, with the nils at the
    end left out where fewer than 16 characters remain, and not elsewhere. *)
Theorem C82_text : forall addr v, tree v -> apart addr v -> source_string addr v = shown v.
Proof.
  intros addr v. induction v as [| | |p l a IH] using val_nested; try reflexivity. intros (Hp & Ha & T) (A & Ap). apply all_forall in T. apply all_forall in Ap.
  cbn [source_string shown]. assert (E : texts (source_string addr) a = texts shown a).
  { clear A Ha. unfold texts. induction IH as [|x a Hx _ IH]; [reflexivity|]. inversion T; subst. inversion Ap; subst. cbn [map]. rewrite Hx, IH by assumption. reflexivity. }
  rewrite <- E. apply node_ok; auto. left. rewrite E. exact A.
Qed.
(** Where every node's expected text has fewer than 16 characters or no nil at the end, the text
    is the expected one, wherever the buffers are moved to. *)
Fixpoint short (v : val) : Prop :=
  match v with
  | VSrc p l a => (zlen (expected v) < 16 \/ is_nil (last a (VStr [])) = false) /\
      (fix all l := match l with [] => True | x :: l => short x /\ all l end) a
  | _ => True
  end.
Lemma drop_last a : is_nil (fst (last a (VStr [], []))) = false -> drop_nils a = a.
Proof.
  induction a as [|x a IH]; [reflexivity|]. intros H. cbn [drop_nils]. destruct a as [|y a]; [cbn in *; rewrite H; reflexivity|].
  rewrite IH by exact H. reflexivity.
Qed.
Lemma trim_last a : is_nil (fst (last a (VStr [], []))) = false -> trim a = a.
Proof. destruct a as [|x [|y a]]; [reflexivity|reflexivity|]. intros H. unfold trim. rewrite drop_last by exact H. reflexivity. Qed.
Lemma last_texts f a : fst (last (texts f a) (VStr [], [])) = last a (VStr []).
Proof. induction a as [|x [|y a] IH]; [reflexivity|reflexivity|exact IH]. Qed.
Theorem C82_short : forall addr v, tree v -> short v -> source_string addr v = expected v.
Proof.
  intros addr v. induction v as [| | |p l a IH] using val_nested; try reflexivity. intros (Hp & Ha & T) (A & Ap). apply all_forall in T. apply all_forall in Ap.
  assert (E : texts (source_string addr) a = texts expected a).
  { clear A Ha. unfold texts. induction IH as [|x a Hx _ IH]; [reflexivity|]. inversion T; subst. inversion Ap; subst. cbn [map]. rewrite Hx, IH by assumption. reflexivity. }
  cbn [expected] in *. rewrite <- E in *. cbn [source_string]. destruct A as [A|A].
  - rewrite node_ok by auto. unfold cut_or_not. replace (_ <? 16) with true by lia. reflexivity.
  - rewrite node_ok by auto. unfold cut_or_not. rewrite trim_last by (rewrite last_texts; exact A). destruct (_ <? 16); reflexivity.
Qed.
(** A tree whose expected text is longer and that has a nil at the end shows the nils. *)
Theorem C82_long : forall addr p l a, tree (VSrc p l a) -> apart addr (VSrc p l a) -> 16 <= zlen (node p l (trim (texts shown a))) ->
  source_string addr (VSrc p l a) = node p l (texts shown a).
Proof. intros addr p l a T A L. rewrite C82_text by assumption. cbn [shown]. unfold cut_or_not. replace (_ <? 16) with false by lia. reflexivity. Qed.

(** msg with the name "x" alone has its nils cut; with the name "abcdefgh" they are shown, and
    the text is not the one expected *)
Definition short_one : val := VSrc 26 1 [VStr (txt "x"); VNil; VNil].
Definition long_one : val := VSrc 26 1 [VStr (txt "abcdefgh"); VNil; VNil].
Theorem C82_case : forall addr, source_string addr short_one = txt "msg (""x"")" /\
  tree short_one /\ short short_one /\
  source_string addr (VSrc 0 1 [VSrc 4 1 [VSrc 26 2 [VStr (txt "x"); VNil; VNil]; VOther (txt "1")]]) =
    txt "code or (msg (""x"")" ++ [10] ++ txt " 1)".
Proof. intros addr. repeat split; try (vm_compute; reflexivity); try (vm_compute; discriminate). left. vm_compute. reflexivity. Qed.
Theorem C82_nils_refuted : exists addr, tree long_one /\ apart addr long_one /\
  source_string addr long_one = txt "msg (""abcdefgh"" nil nil)" /\ expected long_one = txt "msg (""abcdefgh"")".
Proof. exists (fun _ _ => 1000). repeat split; try (vm_compute; reflexivity); vm_compute; discriminate. Qed.
(** Were the buffer moved to an address whose lower half is a small number, the text would be cut there. *)
Theorem C82_address_refuted : exists addr, tree long_one /\ source_string addr long_one = txt "m)".
Proof. exists (fun _ _ => 2). repeat split; try (vm_compute; reflexivity); vm_compute; discriminate. Qed.
