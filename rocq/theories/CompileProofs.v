(** The compiler on the trees of source programs: an equivalent structural
    compiler [cexp], and the proof that potion_source_asmb agrees with it. *)
From Verif Require Import Base Arr GArr WordModel AsmModel CompileModel VmModel SrcSpec.
From Coq Require Import ZifyBool.
Ltac Zify.zify_post_hook ::= Z.div_mod_to_equations.

Definition lidx (c : cst) (x : Z) : Z := match vfind (b_locals (c_f c)) x with Some i => i | None => 0 end.
Definition uidx (c : cst) (x : Z) : Z := match vfind (b_upvals (c_f c)) x with Some i => i | None => 0 end.
Definition decl (x : Z) (c : cst) : cst := fst (put_local x c).
Definition useup (x : Z) (c : cst) : cst := fst (PN_UPVAL x c).
Definition loadname (r n : Z) (c : cst) : cst := let (c, k) := put_value n c in asm2 O_LOADK r k c.
Definition opcode (p : part) : opc := match binop_of p with Some o => o | None => O_NONE end.
Definition path_self (n r : Z) (c : cst) : cst :=
  let (c, k) := put_value n c in asm1 O_SELF r (put_path (PN_NUM k) c).

Definition loops (c : cst) : list Z * list Z := match c_loop c with Some p => p | None => ([], []) end.
Definition endloop (j2 : Z) (j1 : option Z) (outer : option (list Z * list Z)) (r : Z) (c : cst) : cst :=
  let bs := fst (loops c) in
  let cs := snd (loops c) in
  let c := asm1 O_JMP (j2 - oplen c - 1) c in
  let c := match j1 with Some j1 => patch_b j1 (oplen c - j1 - 1) c | None => c end in
  let c := patch_all bs (oplen c) c in
  let c := patch_all cs j2 c in
  PN_REG (r + 1) (set_loop outer c).
Definition endfun (r : Z) (c c1 : cst) : cst :=
  let g := c_f (asm1 O_RETURN 0 c1) in
  match c_up c1 with
  | f :: up =>
      captures (b_upvals g) r
        (asm2 O_PROTO r (snd (vput (b_protos f) (zlen (c_tbl c1))))
           (mkC (set_protos f (fst (vput (b_protos f) (zlen (c_tbl c1))))) up (c_tbl c1 ++ [g]) (c_loop c)))
  | [] => c
  end.

Fixpoint cexp (e : exp) (r : Z) (c : cst) : cst :=
  match e with
  | ELit v => load_value v r (PN_REG r c)
  | EVar x => PN_REG r (asm2 O_GETLOCAL r (lidx c x) (PN_REG r c))
  | EUp x => let c := useup x (PN_REG r c) in PN_REG r (asm2 O_GETUPVAL r (uidx c x) c)
  | ESelf => PN_REG r (asm1 O_SELF r (PN_REG r c))
  | EBin p a b => asm2 (opcode p) r (r + 1) (cexp b (r + 1) (cexp a r (PN_REG r c)))
  | ENot a => asm2 O_NOT r r (cexp a r (PN_REG r c))
  | EBitn a => asm2 O_BITN r r (cexp a r (PN_REG r c))
  | EAnd a b => let c := cexp a r (PN_REG r c) in
                let j := oplen c in
                let c := cexp b r (asm2 O_NOTJMP r 0 c) in
                patch_b j (oplen c - j - 1) c
  | EOr a b => let c := cexp a r (PN_REG r c) in
               let j := oplen c in
               let c := cexp b r (asm2 O_TESTJMP r 0 c) in
               patch_b j (oplen c - j - 1) c
  | ESet x e => let c := decl x (PN_REG r c) in
                PN_REG r (asm2 O_SETLOCAL r (lidx c x) (cexp e r c))
  | EUpSet x e => let c := useup x (PN_REG r c) in
                  PN_REG r (asm2 O_SETUPVAL r (uidx c x) (cexp e r c))
  | EGlob x e => PN_REG (r + 1) (asm2 O_GLOBAL r (r + 1)
                   (cexp e (r + 1) (loadname r x (PN_REG r c))))
  | EInc x up post =>
      let c := PN_REG r c in
      let k := lidx c x in
      let b := if post then r + 1 else r in
      let c := asm2 O_GETLOCAL r k c in
      let c := if post then asm2 O_MOVE (r + 1) r c else c in
      PN_REG (b + 1) (asm2 O_SETLOCAL b k (asm2 O_ADD b (b + 1)
        (asm2 O_LOADPN (b + 1) (Z.lor (inc_word up post) 1) c)))
  | EPath n => let c := PN_REG r c in
               let (c1, k) := put_value n c in
               PN_REG (r + 1) (asm2 O_GETPATH r (r + 1) (asm2 O_LOADK (r + 1) k (asm1 O_SELF r (put_path (PN_NUM k) c1))))
  | EPathOf e n => let c := PN_REG r (cexp e r c) in
                   let (c1, k) := put_value n c in
                   PN_REG (r + 1) (asm2 O_GETPATH r (r + 1) (asm2 O_LOADK (r + 1) k c1))
  | EPathSet n e => let c := PN_REG r c in
                    let (c1, k) := put_value n c in
                    let c := asm2 O_LOADK (r + 1) k (asm1 O_SELF r (put_path (PN_NUM k) c1)) in
                    PN_REG (r + 2) (asm2 O_SETPATH r (r + 2) (cexp e (r + 2) c))
  | EList es => citems es r (asm1 O_NEWTUPLE r (PN_REG r c))
  | ESend e m es =>
      let c := PN_REG r (cexp e r c) in
      let (c, k) := put_value m c in
      let c := asm2 O_MSG r (r + 1) (asm2 O_LOADK r k (asm2 O_MOVE (r + 1) r c)) in
      PN_REG (r + 1 + elen es) (asm2 O_CALL r (r + 1 + elen es) (cargs es (r + 1) c))
  | ESend0 e m =>
      let c := PN_REG r (cexp e r c) in
      let (c, k) := put_value m c in
      let c := asm2 O_BIND r (r + 1) (asm2 O_LOADK r k (asm2 O_MOVE (r + 1) r c)) in
      PN_REG (r + 2) (asm2 O_CALL r (r + 2) (asm2 O_LOADPN (r + 2) PN_NIL c))
  | ESelfSend m es =>
      let c := PN_REG r c in
      let (c, k) := put_value m c in
      let c := asm2 O_MSG r (r + 1) (asm2 O_LOADK r k (asm1 O_SELF (r + 1) c)) in
      PN_REG (r + 1 + elen es) (asm2 O_CALL r (r + 1 + elen es) (cargs es (r + 1) c))
  | ESelfSend0 m =>
      let c := PN_REG r c in
      let (c, k) := put_value m c in
      let c := asm2 O_BIND r (r + 1) (asm2 O_LOADK r k (asm1 O_SELF (r + 1) c)) in
      PN_REG (r + 2) (asm2 O_CALL r (r + 2) (asm2 O_LOADPN (r + 2) PN_NIL c))
  | ECallVar x es =>
      let c := PN_REG r c in
      let c := asm1 O_SELF (r + 1) (asm2 O_GETLOCAL r (lidx c x) c) in
      PN_REG (r + 1 + elen es) (asm2 O_CALL r (r + 1 + elen es) (cargs es (r + 1) c))
  | ECallUp x es =>
      let c := useup x (PN_REG r c) in
      let c := asm1 O_SELF (r + 1) (asm2 O_GETUPVAL r (uidx c x) c) in
      PN_REG (r + 1 + elen es) (asm2 O_CALL r (r + 1 + elen es) (cargs es (r + 1) c))
  | ECallVal e es =>
      let c := asm1 O_SELF (r + 1) (PN_REG r (cexp e r c)) in
      PN_REG (r + 1 + elen es) (asm2 O_CALL r (r + 1 + elen es) (cargs es (r + 1) c))
  | EIf e b k =>
      let c := cexp e (r + 1) (PN_REG r c) in
      let j := oplen c in
      let c := cexps b r (PN_REG r (asm2 O_NOTJMP (r + 1) 0 c)) in
      cclauses k r (PN_REG (r + 1) (patch_b j (oplen c - j - 1) c))
  | EWhile e b =>
      let c := PN_REG r c in
      let j2 := oplen c in
      let c := cexp e (r + 1) c in
      let j1 := oplen c in
      let c := asm2 O_NOTJMP (r + 1) 0 c in
      let outer := c_loop c in
      endloop j2 (Some j1) outer r (cexps b r (PN_REG r (set_loop (Some ([], [])) c)))
  | ELoop b =>
      let c := PN_REG r c in
      let j2 := oplen c in
      let outer := c_loop c in
      endloop j2 None outer r (cexps b r (PN_REG r (set_loop (Some ([], [])) c)))
  | EBreak => let c := PN_REG r c in PN_REG r (asm1 O_JMP 0 (set_loop (Some (fst (loops c) ++ [oplen c], snd (loops c))) c))
  | ECont => let c := PN_REG r c in PN_REG r (asm1 O_JMP 0 (set_loop (Some (fst (loops c), snd (loops c) ++ [oplen c])) c))
  | EReturn e => PN_REG r (asm1 O_RETURN r (cexp e r (PN_REG r c)))
  | ESeq es => cexps es r c
  | ELick n es =>
      PN_REG (r + elen es) (asm2 O_NEWLICK r (r + elen es) (cargs es r (loadname r n (PN_REG r c))))
  | EAt up x k =>
      let c := if up then let c := useup x (PN_REG r c) in asm2 O_GETUPVAL r (uidx c x) c
               else asm2 O_GETLOCAL r (lidx c x) (PN_REG r c) in
      match k with
      | AInt i => asm2 O_GETTUPLE r i c
      | AVar y => PN_REG (r + 1) (asm2 O_GETTUPLE r (Z.lor (r + 1) ASM_TPL_IMM) (asm2 O_GETLOCAL (r + 1) (lidx c y) c))
      | AKey v => let (c1, n) := put_value v c in PN_REG (r + 1) (asm2 O_GETTABLE r (r + 1) (asm2 O_LOADK (r + 1) n c1))
      end
  | EFun l ps b =>
      let c := PN_REG r c in
      let c1 := cexps b 0 (PN_REG 0 (mkC (pb0 ps ps) (c_f c :: c_up c) (c_tbl c) None)) in
      endfun r c c1
  end
with cexps (es : exps) (r : Z) (c : cst) : cst :=
  match es with Nil => c | Cons e es => cexps es r (cexp e r c) end
with citems (es : exps) (r : Z) (c : cst) : cst :=
  match es with
  | Nil => c
  | Cons e es => citems es r (PN_REG (r + 1) (asm2 O_SETTUPLE r (r + 1) (cexp e (r + 1) c)))
  end
with cargs (es : exps) (r : Z) (c : cst) : cst :=
  match es with Nil => c | Cons e es => cargs es (r + 1) (cexp e (r + 1) c) end
with cclauses (k : clauses) (r : Z) (c : cst) : cst :=
  match k with
  | KEnd => c
  | KElse b =>
      let c := PN_REG r c in
      let j := oplen c in
      let c := cexps b r (PN_REG r (asm2 O_TESTJMP (r + 1) 0 c)) in
      PN_REG (r + 1) (patch_b j (oplen c - j - 1) c)
  | KElsif e b k =>
      let c := PN_REG r c in
      let j1 := oplen c in
      let c := cexp e (r + 1) (asm2 O_TESTJMP (r + 1) 0 c) in
      let j2 := oplen c in
      let c := cexps b r (PN_REG r (asm2 O_NOTJMP (r + 1) 0 c)) in
      cclauses k r (PN_REG (r + 1) (patch_b j2 (oplen c - j2 - 1) (patch_b j1 (oplen c - j1 - 1) c)))
  end.

Scheme exp_mut := Induction for exp Sort Prop
  with exps_mut := Induction for exps Sort Prop
  with clauses_mut := Induction for clauses Sort Prop.
Combined Scheme exp_ind3 from exp_mut, exps_mut, clauses_mut.

(** ** tables *)
Lemma vfind_app l l' x : vfind (l ++ l') x =
  match vfind l x with Some i => Some i | None => match vfind l' x with Some j => Some (zlen l + j) | None => None end end.
Proof.
  induction l as [|y l IH]; cbn [vfind app]; [destruct (vfind l' x); reflexivity|].
  destruct (y =? x); [reflexivity|]. rewrite IH, zlen_cons.
  destruct (vfind l x); [reflexivity|]. destruct (vfind l' x); [f_equal; lia|reflexivity].
Qed.
Lemma vfind_range l x i : vfind l x = Some i -> 0 <= i < zlen l.
Proof.
  revert i. induction l as [|y l IH]; cbn [vfind]; [discriminate|]. intros i. rewrite zlen_cons.
  pose proof (zlen_nonneg l). destruct (y =? x); [intros [= <-]; lia|].
  destruct (vfind l x); [|discriminate]. intros [= <-]. specialize (IH _ eq_refl). lia.
Qed.
Lemma vfind_nth l x i : vfind l x = Some i -> znth l i = x.
Proof.
  revert i. induction l as [|y l IH]; cbn [vfind]; [discriminate|]. intros i.
  destruct (y =? x) eqn:E; [intros [= <-]; rewrite znth_cons0; lia|].
  destruct (vfind l x) eqn:F; [|discriminate]. intros [= <-].
  pose proof (vfind_range _ _ _ F). rewrite znth_consS by lia. rewrite <- (IH _ eq_refl). f_equal. lia.
Qed.
Lemma vfind_memb l x : memb x l = match vfind l x with Some _ => true | None => false end.
Proof.
  induction l as [|y l IH]; cbn; [reflexivity|]. unfold memb in IH. rewrite IH, (Z.eqb_sym x y).
  destruct (y =? x); [reflexivity|]. destruct (vfind l x); reflexivity.
Qed.
Lemma memb_true l x : memb x l = true -> exists i, vfind l x = Some i.
Proof. rewrite vfind_memb. destruct (vfind l x); [eauto|discriminate]. Qed.
Lemma memb_false l x : memb x l = false -> vfind l x = None.
Proof. rewrite vfind_memb. destruct (vfind l x); [discriminate|reflexivity]. Qed.
Lemma memb_In l x : memb x l = true <-> In x l.
Proof. unfold memb. rewrite existsb_exists. split; [intros (y & I & E); apply Z.eqb_eq in E; subst; auto|intros I; exists x; split; auto; lia]. Qed.
Lemma vput_fst l x : fst (vput l x) = add x l.
Proof. unfold vput, add. rewrite vfind_memb. destruct (vfind l x); reflexivity. Qed.
Lemma vput_find l x : vfind (fst (vput l x)) x = Some (snd (vput l x)).
Proof.
  unfold vput. destruct (vfind l x) eqn:E; cbn; [assumption|].
  rewrite vfind_app, E. cbn. rewrite Z.eqb_refl. f_equal. lia.
Qed.
Lemma add_prefix x l : exists t, add x l = l ++ t.
Proof. unfold add. destruct (memb x l); [exists []; rewrite app_nil_r; reflexivity|exists [x]; reflexivity]. Qed.
Lemma memb_app x l l' : memb x (l ++ l') = memb x l || memb x l'.
Proof. unfold memb. apply existsb_app. Qed.
Lemma memb_add x y l : memb x (add y l) = (x =? y) || memb x l.
Proof.
  unfold add. destruct (memb y l) eqn:E; [|rewrite memb_app; cbn; destruct (x =? y), (memb x l); reflexivity].
  destruct (x =? y) eqn:F; [|reflexivity]. apply Z.eqb_eq in F. subst. rewrite E. reflexivity.
Qed.

(** ** what scoping depends on *)
Definition skel (c : cst) := (b_locals (c_f c), b_upvals (c_f c), c_up c).
Lemma skel_reg r c : skel (PN_REG r c) = skel c.
Proof. unfold skel, PN_REG, onf. cbn. destruct (_ <=? _); reflexivity. Qed.
Lemma skel_asm2 o a b c : skel (asm2 o a b c) = skel c. Proof. reflexivity. Qed.
Lemma skel_asm1 o a c : skel (asm1 o a c) = skel c. Proof. reflexivity. Qed.
Lemma skel_patch_b j v c : skel (patch_b j v c) = skel c. Proof. reflexivity. Qed.
Lemma skel_patch_a j v c : skel (patch_a j v c) = skel c. Proof. reflexivity. Qed.
Lemma skel_patch_all l t c : skel (patch_all l t c) = skel c.
Proof. unfold patch_all. revert c. induction l as [|j l IH]; intros c; cbn; [reflexivity|]. rewrite IH. apply skel_patch_a. Qed.
Lemma skel_loop l c : skel (set_loop l c) = skel c. Proof. reflexivity. Qed.
Lemma skel_value v c : skel (fst (put_value v c)) = skel c.
Proof. unfold put_value. destruct (vput _ _); reflexivity. Qed.
Lemma skel_path v c : skel (put_path v c) = skel c. Proof. reflexivity. Qed.
Lemma skel_load v r c : skel (load_value v r c) = skel c.
Proof. unfold load_value. destruct (_ && _); [reflexivity|]. pose proof (skel_value v c). destruct (put_value v c). exact H. Qed.
Lemma skel_loadname r n c : skel (loadname r n c) = skel c.
Proof. unfold loadname. pose proof (skel_value n c). destruct (put_value n c). exact H. Qed.
Lemma skel_captures us r c : skel (captures us r c) = skel c.
Proof. revert c. induction us as [|u us IH]; intros c; cbn; [reflexivity|]. rewrite IH. destruct (vfind _ _); reflexivity. Qed.
Lemma skel_endloop j2 j1 o r c : skel (endloop j2 j1 o r c) = skel c.
Proof. unfold endloop. cbv zeta. destruct j1; rewrite ?skel_reg, ?skel_loop, ?skel_patch_all, ?skel_patch_b, ?skel_asm1; reflexivity. Qed.
Lemma skel_endfun r c c1 f up : c_up c1 = f :: up -> skel (endfun r c c1) = (b_locals f, b_upvals f, up).
Proof. unfold endfun. intros ->. rewrite skel_captures, skel_asm2. reflexivity. Qed.
Create HintDb skel.
Global Hint Rewrite skel_reg skel_asm2 skel_asm1 skel_patch_b skel_patch_a skel_patch_all skel_loop
  skel_path skel_load skel_loadname skel_captures skel_endloop : skel.

Fixpoint chain_ok (l : list pb) : Prop :=
  match l with
  | [] => True
  | f :: ups => (forall x, memb x (b_upvals f) = true -> memb x (b_locals f) = false /\ owned (map b_locals ups) x = true)
                /\ chain_ok ups
  end.
Definition scs (enc : list (list Z)) (L : list Z) (k : list Z * list Z * list pb) : Prop :=
  fst (fst k) = L /\ map b_locals (snd k) = enc
  /\ (forall x, memb x (snd (fst k)) = true -> memb x L = false /\ owned enc x = true)
  /\ chain_ok (snd k).
Definition sc enc L c := scs enc L (skel c).

Lemma find_owner_owned ups x : owned (map b_locals ups) x = match find_owner ups x with Some _ => true | None => false end.
Proof.
  induction ups as [|f ups IH]; cbn; [reflexivity|]. unfold owned in IH. rewrite IH, vfind_memb.
  destruct (vfind (b_locals f) x); [reflexivity|]. destruct (find_owner ups x); reflexivity.
Qed.
Lemma push_first_locals n x ups : map b_locals (push_first n x ups) = map b_locals ups.
Proof. revert ups. induction n as [|n IH]; intros [|f ups]; cbn; try reflexivity. f_equal. apply IH. Qed.
Lemma push_first_ok k x ups : find_owner ups x = Some k -> chain_ok ups -> chain_ok (push_first k x ups).
Proof.
  revert k. induction ups as [|f ups IH]; intros k; cbn; [discriminate|].
  destruct (vfind (b_locals f) x) eqn:E; [intros [= <-]; cbn; auto|].
  destruct (find_owner ups x) as [j|] eqn:F; [|discriminate]. cbn. intros [= <-] (A & B). cbn.
  rewrite push_first_locals. split; [|apply IH; auto].
  intros y. change (memb y (b_upvals f ++ [x]) = true -> memb y (b_locals f) = false /\ owned (map b_locals ups) y = true).
  rewrite memb_app. destruct (memb y (b_upvals f)) eqn:G; [intros _; apply A; auto|].
  cbn [memb existsb orb]. rewrite orb_false_r. destruct (y =? x) eqn:K; [|discriminate]. intros _. apply Z.eqb_eq in K. subst y.
  rewrite find_owner_owned, F, vfind_memb, E. auto.
Qed.
(** the upvalue machinery on a variable of an enclosing function *)
Lemma useup_sc enc L c x : sc enc L c -> memb x L = false -> owned enc x = true ->
  sc enc L (useup x c) /\ snd (PN_UPVAL x c) = Some (uidx (useup x c) x)
  /\ vfind (b_upvals (c_f (useup x c))) x <> None.
Proof.
  intros (A & B & C & D) N O. unfold useup, uidx, PN_UPVAL. cbn in A. subst L. rewrite (memb_false _ _ N).
  destruct (vfind (b_upvals (c_f c)) x) as [i|] eqn:E.
  - cbn. rewrite E. split; [|split; [reflexivity|discriminate]]. split; [reflexivity|]. split; [exact B|]. split; [exact C|exact D].
  - cbn in B, C, D. destruct (find_owner (c_up c) x) as [k|] eqn:F.
    2:{ rewrite <- B, find_owner_owned, F in O. discriminate. }
    cbn [fst snd c_f push_upval b_upvals set_upvals]. rewrite vfind_app, E. cbn [vfind]. rewrite Z.eqb_refl.
    split; [|split; [reflexivity|discriminate]].
    split; [reflexivity|]. cbn [skel fst snd c_f c_up push_upval b_upvals set_upvals]. rewrite push_first_locals. split; [exact B|]. split; [|apply push_first_ok; auto].
    intros y. change (memb y (b_upvals (c_f c) ++ [x]) = true -> memb y (b_locals (c_f c)) = false /\ owned enc y = true). rewrite memb_app. destruct (memb y (b_upvals (c_f c))) eqn:G; [intros _; apply C; auto|].
    cbn [memb existsb orb]. rewrite orb_false_r. destruct (y =? x) eqn:K; [|discriminate]. intros _. apply Z.eqb_eq in K. subst y. auto.
Qed.
Lemma upval_local enc L c x : sc enc L c -> memb x L = true ->
  PN_UPVAL x c = (c, None) /\ vfind (b_locals (c_f c)) x = Some (lidx c x).
Proof.
  intros (A & _) M. cbn in A. subst L. destruct (memb_true _ _ M) as (i & E). unfold PN_UPVAL, lidx. rewrite E. auto.
Qed.
Lemma upval_none enc L c x : sc enc L c -> memb x L = false -> owned enc x = false ->
  PN_UPVAL x c = (c, None) /\ vfind (b_locals (c_f c)) x = None.
Proof.
  intros (A & B & C & D) M O. cbn in A, B, C. subst L. unfold PN_UPVAL. rewrite (memb_false _ _ M).
  destruct (vfind (b_upvals (c_f c)) x) as [i|] eqn:E.
  - destruct (C x) as (_ & Q); [pose proof (vfind_memb (b_upvals (c_f c)) x) as V; rewrite E in V; exact V|congruence].
  - rewrite <- B, find_owner_owned in O. destruct (find_owner (c_up c) x); [discriminate|auto].
Qed.
Lemma decl_skel x c : skel (decl x c) = (add x (b_locals (c_f c)), b_upvals (c_f c), c_up c).
Proof. unfold decl, put_local. rewrite <- vput_fst. destruct (vput _ _); reflexivity. Qed.
Lemma decl_sc enc L c x : sc enc L c -> memb x L || negb (owned enc x) = true -> sc enc (add x L) (decl x c).
Proof.
  intros (A & B & C & D) M. unfold sc. rewrite decl_skel. cbn in *. subst L. split; [reflexivity|]. split; [exact B|].
  split; [|exact D]. intros y Y. cbn in Y. destruct (C y Y) as (N & O). split; [|exact O].
  rewrite memb_add, N. destruct (y =? x) eqn:K; [|reflexivity]. apply Z.eqb_eq in K. subst y.
  rewrite N, O in M. discriminate.
Qed.
Lemma sc_eq enc L c c' : skel c' = skel c -> sc enc L c -> sc enc L c'.
Proof. unfold sc. intros ->. auto. Qed.

Section WithUpper.
Context (chr0 : Z -> Z).
Notation upper := (isupper chr0).

Lemma guard_Some b r L : guard b r = Some L -> b = true /\ r = Some L.
Proof. destruct b; cbn; [auto|discriminate]. Qed.
Lemma obind_Some {A B} (r : option A) (k : A -> option B) x : obind r k = Some x -> exists a, r = Some a /\ k a = Some x.
Proof. destruct r; cbn; [eauto|discriminate]. Qed.

Ltac wfinv := repeat match goal with
  | H : guard _ _ = Some _ |- _ => apply guard_Some in H; destruct H as [? H]
  | H : obind _ _ = Some _ |- _ => apply obind_Some in H; destruct H as (? & ? & H)
  | H : Some _ = Some _ |- _ => injection H as H
  | H : _ && _ = true |- _ => apply andb_prop in H; destruct H
  | H : negb _ = true |- _ => apply negb_true_iff in H
  end.

Ltac pv := repeat match goal with |- context [put_value ?n ?c] =>
  let H := fresh "PV" in pose proof (skel_value n c) as H; destruct (put_value n c) as [? ?]; cbn [fst] in H end.
Ltac sks := unfold sc in *; autorewrite with skel;
  repeat (match goal with H : skel ?c = _ |- context [skel ?c] => rewrite H end; autorewrite with skel); try assumption.
Ltac ihs := repeat match goal with IH : _ /\ _ |- _ => destruct IH end.
Lemma wf_fun enc lp L l ps b : wf upper enc lp L (EFun l ps b) =
  guard (nodup ps && (need_all b <=? 255)) (obind (wf_all upper (L :: enc) false ps b) (fun _ => Some L)).
Proof. reflexivity. Qed.
Ltac wfc := try match goal with H : wf _ _ _ _ (EFun _ _ _) = _ |- _ => rewrite wf_fun in H end; cbn [wf wf_all wf_items wf_clauses] in *; wfinv; cbn [cexp cexps citems cargs cclauses]; cbv zeta.

Ltac scih := match goal with
  | IH : context [cexp ?e] |- scs _ _ (skel (cexp ?e _ _)) => eapply IH
  | IH : context [cexps ?e] |- scs _ _ (skel (cexps ?e _ _)) => eapply IH
  | IH : context [citems ?e] |- scs _ _ (skel (citems ?e _ _)) => eapply IH
  | IH : context [cargs ?e] |- scs _ _ (skel (cargs ?e _ _)) => eapply IH
  | IH : context [cclauses ?e] |- scs _ _ (skel (cclauses ?e _ _)) => eapply IH end.
Lemma if_reg (b : bool) (c1 c2 : cst) : (if b then skel c1 else skel c2) = skel (if b then c1 else c2).
Proof. destruct b; reflexivity. Qed.

Lemma cexp_sc :
  (forall e enc lp L L' r c, wf upper enc lp L e = Some L' -> sc enc L c -> sc enc L' (cexp e r c))
  /\ (forall es,
       (forall enc lp L L' r c, wf_all upper enc lp L es = Some L' -> sc enc L c -> sc enc L' (cexps es r c))
       /\ (forall enc lp L L' r c, wf_items upper enc lp L es = Some L' -> sc enc L c -> sc enc L' (citems es r c))
       /\ (forall enc lp L L' r c, wf_items upper enc lp L es = Some L' -> sc enc L c -> sc enc L' (cargs es r c)))
  /\ (forall k enc lp L L' r c, wf_clauses upper enc lp L k = Some L' -> sc enc L c -> sc enc L' (cclauses k r c)).
Proof.
  apply exp_ind3; intros; ihs; try (match goal with |- _ /\ _ => repeat apply conj end; intros); wfc; pv.
  all: try (subst; sks; fail).
  all: try (subst; sks; repeat (scih; [eassumption|]; sks); fail).
  - subst. sks. apply useup_sc; sks.
  - sks. scih; [eassumption|]. apply decl_sc; sks.
  - sks. scih; [eassumption|]. apply useup_sc; sks.
  - subst. destruct post; sks.
  - sks. scih; [eassumption|]. sks. apply useup_sc; sks.
  - subst. destruct up, k; wfinv; pv; sks; try (apply useup_sc; sks).
  - subst. match goal with IH : context [cexps b], E : wf_all _ _ _ _ b = Some _ |- _ =>
      specialize (IH _ _ _ _ 0 (PN_REG 0 (mkC (pb0 ps ps) (c_f (PN_REG r c) :: c_up (PN_REG r c)) (c_tbl (PN_REG r c)) None)) E); rename IH into a end.
    match type of a with ?P -> _ => assert (Q : P) end.
    { match goal with K : sc _ _ c |- _ => destruct K as (A & B & C & D) end. cbn [skel fst snd] in A, B, C, D.
      pose proof (f_equal (fun k => fst (fst k)) (skel_reg r c) : b_locals (c_f (PN_REG r c)) = b_locals (c_f c)) as K1.
      pose proof (f_equal (fun k => snd (fst k)) (skel_reg r c) : b_upvals (c_f (PN_REG r c)) = b_upvals (c_f c)) as K2.
      assert (K3 : c_up (PN_REG r c) = c_up c) by reflexivity.
      unfold sc. rewrite skel_reg. (split; [|split; [|split]]); cbn [skel c_f c_up pb0 fst snd b_locals b_upvals map chain_ok].
      - reflexivity.
      - rewrite K3. congruence.
      - intros y Y. discriminate.
      - rewrite K1, K2, K3. split; [|exact D]. rewrite A, B. exact C. }
    specialize (a Q). destruct a as (A & B & C & D). cbn [skel fst snd] in A, B, C, D.
    destruct (c_up (cexps _ _ _)) as [|f up] eqn:F in B; cbn in B; [discriminate|]. injection B as B1 B2.
    rewrite F in D. unfold sc. erewrite skel_endfun by exact F. destruct D as (D1 & D2).
    (split; [|split; [|split]]); cbn [fst snd]; auto. rewrite <- B1, <- B2. exact D1.
Qed.
End WithUpper.
