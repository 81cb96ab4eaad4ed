(** Running the generated code does what the specification of the language says. *)
From Verif Require Import Base Arr GArr WordModel NumModel AsmModel SigModel CompileModel VmModel SrcSpec CompileProofs CompileEq CompileExt CodeGen GenLem GenOk SimStep SimOp SimBase SimCall.
From Coq Require Import ZifyBool.
Ltac Zify.zify_post_hook ::= Z.div_mod_to_equations.

Lemma has_eq P p p' l : has P p l -> p = p' -> has P p' l.
Proof. intros A <-. exact A. Qed.
Lemma gnth_eq {A} (P : list A) p p' x : gnth P p = Some x -> p = p' -> gnth P p' = Some x.
Proof. intros E <-. exact E. Qed.

Section Sim.
Context {W : Type} (H : host W) (tbl : list pb) (is_str : Z -> bool) (STR0 M : Z).
Context (funs : Z -> option (list Z * exps)) (capt : Z -> list Z).
Context (TO : tbl_ok tbl M).
Context (HT : forall l ps b, funs l = Some (ps, b) -> fun_ok tbl (l, (ps, b)) /\ names is_str ps)
        (HC : forall l, capt l = ups tbl l)
        (HL : (forall w v, h_isref H w v = false) \/
              forall l ps b g, funs l = Some (ps, b) -> gnth tbl l = Some g -> b_locals g = ps).
Local Notation star := (star H tbl is_str STR0).
Local Notation run1 := (run1 H tbl is_str STR0).
Local Notation inv := (inv H).
Local Notation ok := (ok H tbl is_str STR0).
Local Notation stop := (stop H tbl is_str STR0).
Local Notation post := (post H tbl is_str STR0).
Local Notation fok := (fok tbl M).
Local Notation fsok := (fsok tbl).
Local Notation size := (size tbl).
Local Notation size_all := (size_all tbl).
Local Notation size_items := (size_items tbl).
Local Notation size_clauses := (size_clauses tbl).
Local Notation gen := (gen tbl).
Local Notation gens := (gens tbl).
Local Notation geni := (geni tbl).
Local Notation gena := (gena tbl).
Local Notation genk := (genk tbl).
Local Notation gok := (gok tbl).
Local Notation gok_all := (gok_all tbl).
Local Notation gok_clauses := (gok_clauses tbl).
Local Notation eval := (eval H funs capt).
Local Notation evals := (evals H funs capt).
Local Notation evalk := (evalk H funs capt).
Local Notation evlist := (evlist H funs capt).
Local Notation evargs := (evargs H funs capt).
Local Notation evcall := (evcall H funs capt).
Local Notation call := (call H funs capt).
Local Notation R q st i := (znth st (fr_reg q + i)).

Lemma withv_inv (r : res (result (W := W))) k res : withv r k = Ok res ->
  (exists w E v, r = Ok (w, E, Val (Some v)) /\ k w E v = Ok res) \/ (r = Ok res /\ forall ov, snd res <> Val ov).
Proof.
  unfold withv. destruct r as [((w, E), o)| |]; try discriminate. destruct o as [[v|]| | |v|v]; intros K; try discriminate; eauto 10.
  all: right; split; [exact K|]; injection K as <-; cbn; discriminate.
Qed.
Lemma witho_inv (r : res (result (W := W))) k res : witho r k = Ok res ->
  (exists w E v, r = Ok (w, E, Val v) /\ k w E v = Ok res) \/ (r = Ok res /\ forall ov, snd res <> Val ov).
Proof.
  unfold witho. destruct r as [((w, E), o)| |]; try discriminate. destruct o as [v| | |v|v]; intros K; try discriminate; eauto 10.
  all: right; split; [exact K|]; injection K as <-; cbn; discriminate.
Qed.
Lemma bind_inv {A B} (r : res A) (k : A -> res B) x : bind r k = Ok x -> exists y, r = Ok y /\ k y = Ok x.
Proof. destruct r; cbn; try discriminate. eauto. Qed.

(** ** instructions *)
Section Frame.
Context (q : frame) (d : nat) (FO : fok q d).
Local Notation F := (fr_f q).
Local Notation cu := (fr_cu q).
Local Notation nu := (fr_nu q).
Local Notation reg := (fr_reg q).
Definition set1 st st' a v : Prop := znth st' (reg + a) = v /\ forall b, 0 <= b -> b <> a -> znth st' (reg + b) = znth st (reg + b).
Definition keep st st' : Prop := forall b, 0 <= b -> znth st' (reg + b) = znth st (reg + b).
Lemma s_set r st0 pos0 w0 fs0 st pos w fs E a v w' : ok q r st0 pos0 w0 fs0 st pos w fs E ->
  run1 (St q st pos w fs) (St q (supd st (reg + a) v) (pos + 1) w' fs) -> r <= a -> rok F a ->
  exists st', ok q r st0 pos0 w0 fs0 st' (pos + 1) w' fs E /\ set1 st st' a v.
Proof.
  intros O X L RO. exists (supd st (reg + a) v). split; [eapply (ok_set H tbl is_str STR0 M q d TO FO); eassumption|].
  destruct O as [_ IV _ _]. destruct IV as (Z & _). unfold rok in RO. pose proof (st_ok tbl is_str M funs capt TO HT HC q d FO ltac:(lia)) as K.
  split; [apply znth_upd_same; lia|]. intros b B N. apply znth_upd_other; lia.
Qed.
Lemma PF : gnth tbl (fr_id q) = Some F. Proof. apply FO. Qed.
Lemma SM : small F. Proof. apply (TO _ _ PF). Qed.
Lemma CU : 0 <= cu. Proof. apply FO. Qed.
Lemma RM a : rok F a -> regbase cu F + b_stack F <= 4096.
Proof. intros RO. unfold rok in RO. pose proof (st_ok tbl is_str M funs capt TO HT HC q d FO ltac:(lia)) as K. change (regbase cu F) with reg. lia. Qed.
Ltac small := pose proof SM as (? & ? & ? & ? & ? & ?).
Ltac opi OP := small; unfold rok in *; apply opI; [exact OP|lia|lia].
Lemma ok_zlen r st0 pos0 w0 fs0 st pos w fs E : ok q r st0 pos0 w0 fs0 st pos w fs E -> zlen st = 4096.
Proof. intros [_ IV _ _]. apply IV. Qed.

Lemma i_move r st0 pos0 w0 fs0 st pos w fs E a b : ok q r st0 pos0 w0 fs0 st pos w fs E ->
  gnth (b_code F) pos = Some (I O_MOVE a b) -> r <= a -> rok F a -> rok F b ->
  exists st', ok q r st0 pos0 w0 fs0 st' (pos + 1) w fs E /\ set1 st st' a (R q st b).
Proof.
  intros O OP L A B. pose proof (ok_zlen _ _ _ _ _ _ _ _ _ _ O). eapply s_set; [exact O| |exact L|exact A].
  apply (x_move H tbl is_str STR0 _ F cu PF SM CU (RM a A)); try assumption. opi OP.
Qed.
Lemma i_loadk r st0 pos0 w0 fs0 st pos w fs E a v : ok q r st0 pos0 w0 fs0 st pos w fs E ->
  gnth (b_code F) pos = Some (I O_LOADK a (kx F v)) -> inl_ (b_values F) v -> r <= a -> rok F a ->
  exists st', ok q r st0 pos0 w0 fs0 st' (pos + 1) w fs E /\ set1 st st' a v.
Proof.
  intros O OP (i & V) L A. pose proof (ok_zlen _ _ _ _ _ _ _ _ _ _ O). unfold kx, idx in OP. rewrite V in OP.
  pose proof (vfind_range _ _ _ V). pose proof (vfind_nth _ _ _ V) as VN. eapply s_set; [exact O| |exact L|exact A].
  rewrite <- VN at 1. apply (x_loadk H tbl is_str STR0 _ F cu PF SM CU (RM a A)); try assumption. opi OP.
Qed.
Lemma i_loadpn r st0 pos0 w0 fs0 st pos w fs E a v : ok q r st0 pos0 w0 fs0 st pos w fs E ->
  gnth (b_code F) pos = Some (I O_LOADPN a v) -> r <= a -> rok F a ->
  exists st', ok q r st0 pos0 w0 fs0 st' (pos + 1) w fs E /\ set1 st st' a (u64 (sx12 v)).
Proof.
  intros O OP L A. pose proof (ok_zlen _ _ _ _ _ _ _ _ _ _ O). eapply s_set; [exact O| |exact L|exact A].
  apply (x_loadpn H tbl is_str STR0 _ F cu PF SM CU (RM a A)); try assumption.
  unfold op. rewrite OP. unfold I. small. unfold rok in *. rewrite (sx12_small a) by lia. reflexivity.
Qed.
Lemma i_self r st0 pos0 w0 fs0 st pos w fs E a : ok q r st0 pos0 w0 fs0 st pos w fs E ->
  gnth (b_code F) pos = Some (I O_SELF a 0) -> r <= a -> rok F a ->
  exists st', ok q r st0 pos0 w0 fs0 st' (pos + 1) w fs E /\ set1 st st' a (fr_self q).
Proof.
  intros O OP L A. pose proof (ok_zlen _ _ _ _ _ _ _ _ _ _ O). eapply s_set; [exact O| |exact L|exact A].
  assert (SF : znth st (reg - 1) = fr_self q) by (destruct O as [_ IV _ _]; apply IV). rewrite <- SF.
  apply (x_self H tbl is_str STR0 _ F cu PF SM CU (RM a A) st pos w fs a 0); try assumption. opi OP.
Qed.
Lemma i_getlocal r st0 pos0 w0 fs0 st pos w fs E a x v w' : ok q r st0 pos0 w0 fs0 st pos w fs E ->
  gnth (b_code F) pos = Some (I O_GETLOCAL a (lx F x)) -> inl_ (b_locals F) x -> r <= a -> rok F a -> getvar H w E x = Ok (w', v) ->
  exists st', ok q r st0 pos0 w0 fs0 st' (pos + 1) w' fs E /\ set1 st st' a v.
Proof.
  intros O OP (i & V) L A G. pose proof (ok_zlen _ _ _ _ _ _ _ _ _ _ O). unfold lx, idx in OP. rewrite V in OP.
  pose proof (vfind_range _ _ _ V). eapply s_set; [exact O| |exact L|exact A].
  assert (LV := proj1 (proj2 (proj2 (ok_inv _ _ _ _ _ _ _ _ _ _ _ _ _ _ _ O))) x i V). unfold getvar in G. destruct (E x) as [s|]; [|discriminate G].
  eapply (x_getlocal H tbl is_str STR0 _ F cu PF SM CU (RM a A)); try eassumption; [opi OP|].
  unfold getlocal. change (zlen (b_upvals F)) with nu. rewrite LV. exact G.
Qed.
Lemma i_getupval r st0 pos0 w0 fs0 st pos w fs E a x v w' : ok q r st0 pos0 w0 fs0 st pos w fs E ->
  gnth (b_code F) pos = Some (I O_GETUPVAL a (ux F x)) -> inl_ (b_upvals F) x -> r <= a -> rok F a -> getup H w (fr_u q) x = Ok (w', v) ->
  exists st', ok q r st0 pos0 w0 fs0 st' (pos + 1) w' fs E /\ set1 st st' a v.
Proof.
  intros O OP (i & V) L A G. pose proof (ok_zlen _ _ _ _ _ _ _ _ _ _ O). unfold ux, idx in OP. rewrite V in OP.
  pose proof (vfind_range _ _ _ V). eapply s_set; [exact O| |exact L|exact A].
  assert (UV := proj2 (proj2 (proj2 (ok_inv _ _ _ _ _ _ _ _ _ _ _ _ _ _ _ O))) x). rewrite V in UV. unfold getup in G. rewrite UV in G.
  eapply (x_getupval H tbl is_str STR0 _ F cu PF SM CU (RM a A)); try eassumption. opi OP.
Qed.
Lemma i_prim2 o p r st0 pos0 w0 fs0 st pos w fs E a b v w' : ok q r st0 pos0 w0 fs0 st pos w fs E ->
  gnth (b_code F) pos = Some (I o a b) -> (o, p) = (O_GETPATH, P_obj_get) \/ (o, p) = (O_SETTUPLE, P_push) -> r <= a -> rok F a -> rok F b ->
  h_prim H p w [R q st a; R q st b] = Ok (w', v) ->
  exists st', ok q r st0 pos0 w0 fs0 st' (pos + 1) w' fs E /\ set1 st st' a v.
Proof.
  intros O OP [Q|Q] L A B G; injection Q as -> ->; pose proof (ok_zlen _ _ _ _ _ _ _ _ _ _ O); (eapply s_set; [exact O| |exact L|exact A]).
  - eapply (x_getpath H tbl is_str STR0 _ F cu PF SM CU (RM a A)); try eassumption. opi OP.
  - eapply (x_settuple H tbl is_str STR0 _ F cu PF SM CU (RM a A)); try eassumption. opi OP.
Qed.
Lemma i_look o p r st0 pos0 w0 fs0 st pos w fs E a b v w' : ok q r st0 pos0 w0 fs0 st pos w fs E ->
  gnth (b_code F) pos = Some (I o a b) -> (o, p) = (O_BIND, P_bind) \/ (o, p) = (O_MSG, P_message) -> r <= a -> rok F a -> rok F b ->
  h_prim H p w [R q st b; R q st a] = Ok (w', v) ->
  exists st', ok q r st0 pos0 w0 fs0 st' (pos + 1) w' fs E /\ set1 st st' a v.
Proof.
  intros O OP [Q|Q] L A B G; injection Q as -> ->; pose proof (ok_zlen _ _ _ _ _ _ _ _ _ _ O); (eapply s_set; [exact O| |exact L|exact A]).
  - eapply (x_bind H tbl is_str STR0 _ F cu PF SM CU (RM a A)); try eassumption. opi OP.
  - eapply (x_msg H tbl is_str STR0 _ F cu PF SM CU (RM a A)); try eassumption. opi OP.
Qed.
Lemma i_newlick r st0 pos0 w0 fs0 st pos w fs E a n v w' : ok q r st0 pos0 w0 fs0 st pos w fs E ->
  gnth (b_code F) pos = Some (I O_NEWLICK a (a + n)) -> 0 <= n <= 2 -> r <= a -> rok F a -> rok F (a + n) ->
  h_prim H P_lick w [R q st a; if 0 <? n then R q st (a + 1) else PN_NIL; if 1 <? n then R q st (a + 2) else PN_NIL] = Ok (w', v) ->
  exists st', ok q r st0 pos0 w0 fs0 st' (pos + 1) w' fs E /\ set1 st st' a v.
Proof.
  intros O OP N L A B G; pose proof (ok_zlen _ _ _ _ _ _ _ _ _ _ O); (eapply s_set; [exact O| |exact L|exact A]).
  eapply (x_newlick H tbl is_str STR0 _ F cu PF SM CU (RM a A)); try eassumption. opi OP.
Qed.
Lemma i_gettable r st0 pos0 w0 fs0 st pos w fs E a b v w' : ok q r st0 pos0 w0 fs0 st pos w fs E ->
  gnth (b_code F) pos = Some (I O_GETTABLE a b) -> r <= a -> rok F a -> rok F b ->
  h_prim H P_table_at w [R q st a; R q st b] = Ok (w', v) ->
  exists st', ok q r st0 pos0 w0 fs0 st' (pos + 1) w' fs E /\ set1 st st' a v.
Proof.
  intros O OP L A B G; pose proof (ok_zlen _ _ _ _ _ _ _ _ _ _ O); (eapply s_set; [exact O| |exact L|exact A]).
  eapply (x_gettable H tbl is_str STR0 _ F cu PF SM CU (RM a A)); try eassumption. opi OP.
Qed.
Lemma i_gettuple_imm r st0 pos0 w0 fs0 st pos w fs E a i v w' : ok q r st0 pos0 w0 fs0 st pos w fs E ->
  gnth (b_code F) pos = Some (I O_GETTUPLE a i) -> r <= a -> rok F a -> 0 <= i < 1024 ->
  h_prim H P_tuple_at w [R q st a; PN_NUM i] = Ok (w', v) ->
  exists st', ok q r st0 pos0 w0 fs0 st' (pos + 1) w' fs E /\ set1 st st' a v.
Proof.
  intros O OP L A B G; pose proof (ok_zlen _ _ _ _ _ _ _ _ _ _ O); (eapply s_set; [exact O| |exact L|exact A]).
  eapply (x_gettuple_imm H tbl is_str STR0 _ F cu PF SM CU (RM a A)); try eassumption. opi OP.
Qed.
Lemma i_gettuple_reg r st0 pos0 w0 fs0 st pos w fs E a b v w' : ok q r st0 pos0 w0 fs0 st pos w fs E ->
  gnth (b_code F) pos = Some (I O_GETTUPLE a (Z.lor b ASM_TPL_IMM)) -> r <= a -> rok F a -> rok F b ->
  h_prim H P_tuple_at w [R q st a; PN_NUM (PN_INT (R q st b))] = Ok (w', v) ->
  exists st', ok q r st0 pos0 w0 fs0 st' (pos + 1) w' fs E /\ set1 st st' a v.
Proof.
  intros O OP L A B G; pose proof (ok_zlen _ _ _ _ _ _ _ _ _ _ O); (eapply s_set; [exact O| |exact L|exact A]).
  assert (b < 1024) by (unfold rok in B; destruct SM as (_ & _ & _ & _ & _ & S6); lia).
  eapply (x_gettuple_reg H tbl is_str STR0 _ F cu PF SM CU (RM a A)); try eassumption.
  small; eapply opI; [exact OP|unfold rok in *; lia|rewrite lor_imm by (unfold rok in *; lia); unfold rok in *; lia].
Qed.
Lemma i_newtuple r st0 pos0 w0 fs0 st pos w fs E a v w' : ok q r st0 pos0 w0 fs0 st pos w fs E ->
  gnth (b_code F) pos = Some (I O_NEWTUPLE a 0) -> r <= a -> rok F a -> h_prim H P_tuple w [] = Ok (w', v) ->
  exists st', ok q r st0 pos0 w0 fs0 st' (pos + 1) w' fs E /\ set1 st st' a v.
Proof.
  intros O OP L A G; pose proof (ok_zlen _ _ _ _ _ _ _ _ _ _ O); (eapply s_set; [exact O| |exact L|exact A]).
  eapply (x_newtuple H tbl is_str STR0 _ F cu PF SM CU (RM a A)); try eassumption. opi OP.
Qed.
Lemma i_global r st0 pos0 w0 fs0 st pos w fs E a b v w' : ok q r st0 pos0 w0 fs0 st pos w fs E ->
  gnth (b_code F) pos = Some (I O_GLOBAL a b) -> r <= a -> rok F a -> rok F b -> h_prim H P_global w [R q st a; R q st b] = Ok (w', v) ->
  exists st', ok q r st0 pos0 w0 fs0 st' (pos + 1) w' fs E /\ set1 st st' a (R q st b).
Proof.
  intros O OP L A B G; pose proof (ok_zlen _ _ _ _ _ _ _ _ _ _ O); (eapply s_set; [exact O| |exact L|exact A]).
  eapply (x_global H tbl is_str STR0 _ F cu PF SM CU (RM a A)); try eassumption. opi OP.
Qed.
Lemma i_not r st0 pos0 w0 fs0 st pos w fs E a : ok q r st0 pos0 w0 fs0 st pos w fs E ->
  gnth (b_code F) pos = Some (I O_NOT a a) -> r <= a -> rok F a ->
  exists st', ok q r st0 pos0 w0 fs0 st' (pos + 1) w fs E /\ set1 st st' a (PN_BOOL (negb (PN_TEST (R q st a)))).
Proof.
  intros O OP L A; pose proof (ok_zlen _ _ _ _ _ _ _ _ _ _ O); (eapply s_set; [exact O| |exact L|exact A]).
  eapply (x_not H tbl is_str STR0 _ F cu PF SM CU (RM a A)); try eassumption. opi OP.
Qed.
Lemma i_bitn r st0 pos0 w0 fs0 st pos w fs E a v w' : ok q r st0 pos0 w0 fs0 st pos w fs E ->
  gnth (b_code F) pos = Some (I O_BITN a a) -> r <= a -> rok F a ->
  (if PN_IS_INT (R q st a) then Ok (w, num_bitn (R q st a)) else h_prim H P_bitn w [R q st a]) = Ok (w', v) ->
  exists st', ok q r st0 pos0 w0 fs0 st' (pos + 1) w' fs E /\ set1 st st' a v.
Proof.
  intros O OP L A G; pose proof (ok_zlen _ _ _ _ _ _ _ _ _ _ O); (eapply s_set; [exact O| |exact L|exact A]).
  destruct (PN_IS_INT (R q st a)) eqn:Q.
  - injection G as <- <-. eapply (x_bitn_int H tbl is_str STR0 _ F cu PF SM CU (RM a A)); try eassumption. opi OP.
  - eapply (x_bitn H tbl is_str STR0 _ F cu PF SM CU (RM a A)); try eassumption. opi OP.
Qed.
Lemma i_bin r st0 pos0 w0 fs0 st pos w fs E o a b v w' : ok q r st0 pos0 w0 fs0 st pos w fs E ->
  gnth (b_code F) pos = Some (I o a b) -> is_bin o = true -> r <= a -> rok F a -> rok F b ->
  binop H o w (R q st a) (R q st b) = Ok (w', inl v) ->
  exists st', ok q r st0 pos0 w0 fs0 st' (pos + 1) w' fs E /\ set1 st st' a v.
Proof.
  intros O OP IB L A B G; pose proof (ok_zlen _ _ _ _ _ _ _ _ _ _ O); (eapply s_set; [exact O| |exact L|exact A]).
  eapply (x_bin H tbl is_str STR0 _ F cu PF SM CU (RM a A)); try eassumption. opi OP.
Qed.
Lemma i_bin_err r st0 pos0 w0 fs0 st pos w fs E o a b v w' tb tc E' : ok q r st0 pos0 w0 fs0 st pos w fs E ->
  gnth (b_code F) pos = Some (I o a b) -> is_bin o = true -> rok F a -> rok F b ->
  binop H o w (R q st a) (R q st b) = Ok (w', inr v) ->
  stop q r st0 pos0 w0 fs0 tb tc (w', E', Abort v).
Proof.
  intros O OP IB A B G; pose proof (ok_zlen _ _ _ _ _ _ _ _ _ _ O). exists (St q st pos w fs), fs. split; [apply O|].
  assert (OP' : op F pos o a b) by opi OP. eapply (x_bin_err H tbl is_str STR0 _ F cu PF SM CU (RM a A)); [exact IB|exact OP'|exact A|exact B|assumption|exact G].
Qed.
Lemma i_setupval r st0 pos0 w0 fs0 st pos w fs E a x v w' : ok q r st0 pos0 w0 fs0 st pos w fs E ->
  gnth (b_code F) pos = Some (I O_SETUPVAL a (ux F x)) -> inl_ (b_upvals F) x -> rok F a -> R q st a = v -> setup H w (fr_u q) x v = Ok w' ->
  ok q r st0 pos0 w0 fs0 st (pos + 1) w' fs E.
Proof.
  intros O OP (i & V) A <- G. pose proof (ok_zlen _ _ _ _ _ _ _ _ _ _ O). unfold ux, idx in OP. rewrite V in OP.
  pose proof (vfind_range _ _ _ V). eapply (ok_go H tbl is_str STR0 q); [exact O|].
  assert (UV := proj2 (proj2 (proj2 (ok_inv _ _ _ _ _ _ _ _ _ _ _ _ _ _ _ O))) x). rewrite V in UV. unfold setup in G. rewrite UV in G.
  apply bind_inv in G. destruct G as ((w1, v1) & G & Q). injection Q as <-.
  assert (OP' : op F pos O_SETUPVAL a i) by opi OP. clear OP. eapply (x_setupval H tbl is_str STR0 _ F cu PF SM CU (RM a A)); try eassumption.
Qed.
Lemma i_setpath r st0 pos0 w0 fs0 st pos w fs E a b v w' : ok q r st0 pos0 w0 fs0 st pos w fs E ->
  gnth (b_code F) pos = Some (I O_SETPATH a b) -> rok F a -> rok F (a + 1) -> rok F b -> h_prim H P_obj_set w [R q st a; R q st (a + 1); R q st b] = Ok (w', v) ->
  ok q r st0 pos0 w0 fs0 st (pos + 1) w' fs E.
Proof.
  intros O OP A A1 B G. pose proof (ok_zlen _ _ _ _ _ _ _ _ _ _ O). eapply (ok_go H tbl is_str STR0 q); [exact O|].
  assert (OP' : op F pos O_SETPATH a b) by opi OP. clear OP. eapply (x_setpath H tbl is_str STR0 _ F cu PF SM CU (RM a A)); try eassumption.
Qed.
Lemma i_jmp r st0 pos0 w0 fs0 st pos w fs E a : ok q r st0 pos0 w0 fs0 st pos w fs E ->
  gnth (b_code F) pos = Some (I O_JMP a 0) -> 0 <= pos + a + 1 <= 2047 ->
  ok q r st0 pos0 w0 fs0 st (pos + a + 1) w fs E.
Proof.
  intros O OP L. eapply (ok_go H tbl is_str STR0 q); [exact O|]. pose proof (gnth_Some _ _ _ OP). small.
  assert (RB : regbase cu F + b_stack F <= 4096 \/ b_stack F < 0).
  { destruct (Z.lt_ge_cases (b_stack F) 0); [right; assumption|left]. pose proof (st_ok tbl is_str M funs capt TO HT HC q d FO ltac:(lia)) as K. change (regbase cu F) with reg. lia. }
  intros nested. unfold step, St. cbn [v_st v_w v_f v_cu v_pos v_fs]. unfold proto_at, grd. rewrite PF. cbn [bind].
  replace (pos <? zlen (b_code F)) with true by lia. cbn [negb]. unfold instr_at. rewrite OP. unfold I. rewrite !sx12_small by lia. cbv zeta. rewrite u32_id by lia. reflexivity.
Qed.
Lemma i_testjmp r st0 pos0 w0 fs0 st pos w fs E a b : ok q r st0 pos0 w0 fs0 st pos w fs E ->
  gnth (b_code F) pos = Some (I O_TESTJMP a b) -> rok F a -> 0 <= b -> pos + b + 1 <= 2047 ->
  ok q r st0 pos0 w0 fs0 st (if PN_TEST (R q st a) then pos + b + 1 else pos + 1) w fs E.
Proof.
  intros O OP A L1 L2. pose proof (ok_zlen _ _ _ _ _ _ _ _ _ _ O). eapply (ok_go H tbl is_str STR0 q); [exact O|]. pose proof (gnth_Some _ _ _ OP). small.
  assert (OP' : op F pos O_TESTJMP a b) by opi OP. clear OP. eapply (x_testjmp H tbl is_str STR0 _ F cu PF SM CU (RM a A)); try eassumption; lia.
Qed.
Lemma i_notjmp r st0 pos0 w0 fs0 st pos w fs E a b : ok q r st0 pos0 w0 fs0 st pos w fs E ->
  gnth (b_code F) pos = Some (I O_NOTJMP a b) -> rok F a -> 0 <= b -> pos + b + 1 <= 2047 ->
  ok q r st0 pos0 w0 fs0 st (if PN_TEST (R q st a) then pos + 1 else pos + b + 1) w fs E.
Proof.
  intros O OP A L1 L2. pose proof (ok_zlen _ _ _ _ _ _ _ _ _ _ O). eapply (ok_go H tbl is_str STR0 q); [exact O|]. pose proof (gnth_Some _ _ _ OP). small.
  assert (OP' : op F pos O_NOTJMP a b) by opi OP. clear OP. eapply (x_notjmp H tbl is_str STR0 _ F cu PF SM CU (RM a A)); try eassumption; lia.
Qed.
Lemma inv_ext st E E' : inv q st E -> (forall x, E' x = E x) -> inv q st E'.
Proof. intros (Z & SF & L & U) X. split; [exact Z|]. split; [exact SF|]. split; [|exact U]. intros x i V. rewrite X. apply L, V. Qed.
Lemma i_setlocal r st0 pos0 w0 fs0 st pos w fs E a x v w' E' : ok q r st0 pos0 w0 fs0 st pos w fs E ->
  gnth (b_code F) pos = Some (I O_SETLOCAL a (lx F x)) -> inl_ (b_locals F) x -> rok F a -> R q st a = v -> setvar H w E x v = Ok (w', E') ->
  exists st', ok q r st0 pos0 w0 fs0 st' (pos + 1) w' fs E' /\ keep st st'.
Proof.
  intros O OP (i & V) A <- G. pose proof (ok_zlen _ _ _ _ _ _ _ _ _ _ O) as Z. unfold lx, idx in OP. rewrite V in OP.
  pose proof (vfind_range _ _ _ V) as VR. pose proof A as A'. unfold rok in A'. pose proof (st_ok tbl is_str M funs capt TO HT HC q d FO ltac:(lia)) as K. unfold fr_nu in K.
  assert (LV := proj1 (proj2 (proj2 (ok_inv _ _ _ _ _ _ _ _ _ _ _ _ _ _ _ O))) x i V).
  assert (OP' : op F pos O_SETLOCAL a i) by opi OP.
  assert (KK : forall s v, zlen s = 4096 -> keep s (supd s (cu + nu + i) v)).
  { intros s v0 ZS b B. unfold fr_nu in *. apply znth_upd_other; lia. }
  unfold setvar in G. destruct (E x) as [s|] eqn:EX.
  - destruct (h_isref H w s) eqn:IR.
    + apply bind_inv in G. destruct G as ((w1, v1) & G & Q). injection Q as <- <-.
      exists (supd st (cu + nu + i) s). split; [|apply KK, Z].
      assert (O1 : ok q r st0 pos0 w0 fs0 (supd st (cu + nu + i) s) (pos + 1) w1 fs (eupd E x s)).
      { eapply (ok_local H tbl is_str STR0 M q d TO FO); [exact O|lia| |exact V].
        eapply (x_setlocal H tbl is_str STR0 _ F cu PF SM CU (RM a A)); try eassumption. unfold setlocal. change (zlen (b_upvals F)) with nu. rewrite LV, IR.
        change (regbase cu F) with reg. rewrite G. reflexivity. }
      destruct O1 as [S1 IV1 FS1 SA1]. split; try assumption. eapply inv_ext; [exact IV1|]. intros y. unfold eupd. destruct (y =? x) eqn:Q; [|reflexivity].
      apply Z.eqb_eq in Q. subst y. exact EX.
    + injection G as <- <-. exists (supd st (cu + nu + i) (R q st a)). split; [|apply KK, Z].
      eapply (ok_local H tbl is_str STR0 M q d TO FO); [exact O|lia| |exact V].
      eapply (x_setlocal H tbl is_str STR0 _ F cu PF SM CU (RM a A)); try eassumption. unfold setlocal. change (zlen (b_upvals F)) with nu. rewrite LV, IR. reflexivity.
  - injection G as <- <-. exists (supd st (cu + nu + i) (R q st a)). split; [|apply KK, Z].
    eapply (ok_local H tbl is_str STR0 M q d TO FO); [exact O|lia| |exact V].
    eapply (x_setlocal H tbl is_str STR0 _ F cu PF SM CU (RM a A)); try eassumption. unfold setlocal. change (zlen (b_upvals F)) with nu. rewrite (LV w). reflexivity.
Qed.

(** ** ends *)
Lemma fin_val r st0 pos0 w0 fs0 st pos w fs E sz kp tb tc ov : ok q r st0 pos0 w0 fs0 st pos w fs E -> pos = pos0 + sz ->
  (forall v, ov = Some v -> R q st r = v) -> (kp = true -> T (R q st0 (r + 1)) -> T (R q st (r + 1))) ->
  post q r st0 pos0 w0 fs0 sz kp tb tc (w, E, Val ov).
Proof. intros O -> V KP. exists st, fs. cbn [fst snd]. auto. Qed.
(** what follows the prefix *)
Lemma post_seq r st0 pos0 w0 fs0 st pos w fs E sz kp sz0 kp0 tb tc res : ok q r st0 pos0 w0 fs0 st pos w fs E ->
  post q r st pos w fs sz kp tb tc res -> pos + sz = pos0 + sz0 ->
  (kp0 = true -> T (R q st0 (r + 1)) -> kp = true /\ T (R q st (r + 1))) -> post q r st0 pos0 w0 fs0 sz0 kp0 tb tc res.
Proof.
  intros O P Q KP. unfold post in *. destruct res as ((w', E'), o). cbn [fst snd] in *.
  destruct o as [ov| | | |]; try (eapply (stop_ok H tbl is_str STR0 M q d FO); [exact O|exact P|lia]).
  destruct P as (st' & fs' & O' & V & K). exists st', fs'. split; [|split; [exact V|]].
  - rewrite <- Q. eapply (ok_trans H tbl is_str STR0 q); [exact O|exact O'|lia].
  - intros K0 T0. destruct (KP K0 T0). auto.
Qed.
End Frame.

(** ** the statement *)
Definition lim (tb tc : Z) : Prop := 0 <= tb <= 2047 /\ 0 <= tc <= 2047.
Record pc (q : frame) (d : nat) (r pos sz nd tb tc : Z) (st : list Z) (E : env) (fs : Z -> Z) : Prop := mkPc {
  pc_fok : fok q d; pc_r : 0 <= r; pc_nd : r + nd < b_stack (fr_f q); pc_pos : 0 <= pos; pc_end : pos + sz <= zlen (b_code (fr_f q));
  pc_lim : lim tb tc; pc_inv : inv q st E; pc_fs : fsok fs }.
Definition SE n := forall q d r pos tb tc st fs w E cv e res, pc q d r pos (size e) (need e) tb tc st E fs ->
  (forall v, cv = Some v -> R q st r = v) -> has (b_code (fr_f q)) pos (gen (fr_f q) e r pos tb tc) -> gok (fr_f q) e ->
  eval n d (fr_self q) (fr_u q) w E cv e = Ok res -> post q r st pos w fs (size e) (keeps e) tb tc res.
Definition SS n := forall q d r pos tb tc st fs w E cv e res, pc q d r pos (size_all e) (need_all e) tb tc st E fs ->
  (forall v, cv = Some v -> R q st r = v) -> has (b_code (fr_f q)) pos (gens (fr_f q) e r pos tb tc) -> gok_all (fr_f q) e ->
  evals n d (fr_self q) (fr_u q) w E cv e = Ok res -> post q r st pos w fs (size_all e) (keeps_all e) tb tc res.
Definition SK n := forall q d r pos tb tc st fs w E cv e res, pc q d r pos (size_clauses e) (need_clauses e) tb tc st E fs ->
  (forall v, cv = Some v -> R q st r = v) -> PN_TEST (R q st (r + 1)) = false ->
  has (b_code (fr_f q)) pos (genk (fr_f q) e r pos tb tc) -> gok_clauses (fr_f q) e ->
  evalk n d (fr_self q) (fr_u q) w E cv e = Ok res -> post q r st pos w fs (size_clauses e) false tb tc res.
Definition SL n := forall q d r pos tb tc st fs w E t e res, pc q d r pos (size_items e) (need_items e) tb tc st E fs ->
  R q st r = t -> has (b_code (fr_f q)) pos (geni (fr_f q) e r pos tb tc) -> gok_all (fr_f q) e -> rok (fr_f q) r ->
  evlist n d (fr_self q) (fr_u q) w E t e = Ok res ->
  match snd res with
  | Val ov => exists st' fs', ok q r st pos w fs st' (pos + size_items e) (fst (fst res)) fs' (snd (fst res)) /\ (forall v, ov = Some v -> R q st' r = v)
     /\ (truthy_last e = true -> (e = Nil -> T (R q st (r + 1))) -> T (R q st' (r + 1)))
  | _ => stop q r st pos w fs tb tc res
  end.
Definition SA n := forall q d r pos tb tc st fs w E vs e p, pc q d r pos (size_all e) (need_args e) tb tc st E fs ->
  has (b_code (fr_f q)) pos (gena (fr_f q) e r pos tb tc) -> gok_all (fr_f q) e ->
  evargs n d (fr_self q) (fr_u q) w E vs e = Ok p ->
  match p with
  | More w' E' vs' => exists st' fs' vs1, ok q (r + 1) st pos w fs st' (pos + size_all e) w' fs' E'
      /\ vs' = vs ++ vs1 /\ zlen vs1 = elen e /\ forall i, 0 <= i < zlen vs1 -> R q st' (r + 1 + i) = znth vs1 i
  | Stop res => stop q (r + 1) st pos w fs tb tc res
  end.
Definition SC n := forall q d r pos tb tc st fs w E cl slf e res, pc q d r pos (size_all e + 1) (1 + need_args e) tb tc st E fs ->
  R q st r = cl -> R q st (r + 1) = slf ->
  has (b_code (fr_f q)) pos (gena (fr_f q) e (r + 1) pos tb tc ++ [I O_CALL r (r + 1 + elen e)]) -> gok_all (fr_f q) e ->
  evcall n d (fr_self q) (fr_u q) w E cl slf e = Ok res -> post q r st pos w fs (size_all e + 1) true tb tc res.
Definition CO n := forall q d r pos tb tc st fs w E cl slf vs w' o, fok q d ->
  gnth (b_code (fr_f q)) pos = Some (I O_CALL r (r + 1 + zlen vs)) -> 0 <= r -> rok (fr_f q) (r + 1 + zlen vs) -> inv q st E -> fsok fs ->
  R q st r = cl -> R q st (r + 1) = slf -> (forall i, 0 <= i < zlen vs -> R q st (r + 2 + i) = znth vs i) ->
  call n d w cl slf vs = Ok (w', o) -> post q r st pos w fs 1 true tb tc (w', E, o).
Definition all n := SE n /\ SS n /\ SK n /\ SL n /\ SA n /\ SC n /\ CO n.

Lemma CO_of n : match n with O => True | S n => SS n end -> CO n.
Proof.
  destruct n as [|n]; intros IH q d r pos tb tc st fs w E cl slf vs w' o FO OP R0 RO IV FS A B C CL; [discriminate CL|].
  eapply (call_sim H tbl is_str STR0 M funs capt TO HT HC HL q d FO n); try eassumption.
  intros d' q' st' fs' w1 E1 cv b res F' HS GK ND SZ IV' FS' CV EV.
  eapply (IH q' d' 0 0 0 0); try eassumption. split; try assumption; try lia. split; lia.
Qed.

(** evaluating a part, after some instructions *)
Section Part.
Context (n : nat) (q : frame) (d : nat) (FO : fok q d).
Local Notation F := (fr_f q).
Lemma sub_e (IH : SE n) r0 st0 pos0 w0 fs0 st pos w fs E r e cv tb tc k res :
  ok q r0 st0 pos0 w0 fs0 st pos w fs E -> r0 <= r -> 0 <= r -> r + need e < b_stack F -> 0 <= pos -> pos + size e <= zlen (b_code F) -> lim tb tc ->
  has (b_code F) pos (gen F e r pos tb tc) -> gok F e -> (forall v, cv = Some v -> R q st r = v) ->
  withv (eval n d (fr_self q) (fr_u q) w E cv e) k = Ok res ->
  ((forall ov, snd res <> Val ov) /\ forall sz kp, post q r0 st0 pos0 w0 fs0 sz kp tb tc res) \/
  exists w1 E1 v st1 fs1, eval n d (fr_self q) (fr_u q) w E cv e = Ok (w1, E1, Val (Some v)) /\ k w1 E1 v = Ok res
    /\ ok q r0 st0 pos0 w0 fs0 st1 (pos + size e) w1 fs1 E1 /\ R q st1 r = v /\ (forall b, 0 <= b < r -> R q st1 b = R q st b)
    /\ (keeps e = true -> T (R q st (r + 1)) -> T (R q st1 (r + 1))).
Proof.
  intros O L R0 ND P0 PE LM HS GK CV EV.
  assert (X : forall rs, eval n d (fr_self q) (fr_u q) w E cv e = Ok rs -> post q r st pos w fs (size e) (keeps e) tb tc rs).
  { intros rs EQ. eapply (IH q d); try eassumption. split; try assumption; apply O. }
  apply withv_inv in EV. destruct EV as [(w1 & E1 & v & EQ & EK)|(EQ & NV)].
  - right. destruct (X _ EQ) as (st1 & fs1 & O1 & V1 & K1). cbn [fst snd] in *. exists w1, E1, v, st1, fs1.
    split; [exact EQ|]. split; [exact EK|]. split; [eapply (ok_trans H tbl is_str STR0 q); eassumption|]. split; [apply V1; reflexivity|].
    split; [|exact K1]. intros b B. destruct O1 as [_ _ _ SA]. destruct (f_nonneg tbl M q d FO) as (A1 & A2 & A3). pose proof (f_reg q). apply SA; lia.
  - left. split; [exact NV|]. intros sz kp. eapply (post_stop H tbl is_str STR0 M q d FO); [exact O|apply X, EQ|exact NV|exact L].
Qed.
Lemma sub_s (IH : SS n) r0 st0 pos0 w0 fs0 st pos w fs E r e cv tb tc res :
  ok q r0 st0 pos0 w0 fs0 st pos w fs E -> r0 <= r -> 0 <= r -> r + need_all e < b_stack F -> 0 <= pos -> pos + size_all e <= zlen (b_code F) -> lim tb tc ->
  has (b_code F) pos (gens F e r pos tb tc) -> gok_all F e -> (forall v, cv = Some v -> R q st r = v) ->
  evals n d (fr_self q) (fr_u q) w E cv e = Ok res ->
  ((forall ov, snd res <> Val ov) /\ stop q r0 st0 pos0 w0 fs0 tb tc res) \/
  exists w1 E1 ov st1 fs1, res = (w1, E1, Val ov)
    /\ ok q r0 st0 pos0 w0 fs0 st1 (pos + size_all e) w1 fs1 E1 /\ (forall v, ov = Some v -> R q st1 r = v)
    /\ (keeps_all e = true -> T (R q st (r + 1)) -> T (R q st1 (r + 1))).
Proof.
  intros O L R0 ND P0 PE LM HS GK CV EV.
  assert (X : post q r st pos w fs (size_all e) (keeps_all e) tb tc res).
  { eapply (IH q d); try eassumption. split; try assumption; apply O. }
  destruct res as ((w1, E1), o). destruct o as [ov| | |v|v].
  1:{ right. destruct X as (st1 & fs1 & O1 & V1 & K1). cbn [fst snd] in *. exists w1, E1, ov, st1, fs1.
      split; [reflexivity|]. split; [eapply (ok_trans H tbl is_str STR0 q); eassumption|]. split; assumption. }
  all: left; split; [intros ov; cbn; discriminate|]; eapply (stop_ok H tbl is_str STR0 M q d FO); [exact O|exact X|exact L].
Qed.
Lemma skip_k : forall k r0 st0 pos0 w0 fs0 st pos w fs E r tb tc, ok q r0 st0 pos0 w0 fs0 st pos w fs E -> 0 <= r -> r + need_clauses k < b_stack F ->
  0 <= pos -> pos + size_clauses k <= zlen (b_code F) -> has (b_code F) pos (genk F k r pos tb tc) -> T (R q st (r + 1)) ->
  ok q r0 st0 pos0 w0 fs0 st (pos + size_clauses k) w fs E.
Proof.
  destruct (SM q d FO) as (SMc & _).
  assert (X : forall k r0 st0 pos0 w0 fs0 st pos w fs E r tb tc pos', ok q r0 st0 pos0 w0 fs0 st pos w fs E -> 0 <= r -> r + need_clauses k < b_stack F ->
  0 <= pos -> pos + size_clauses k <= zlen (b_code F) -> has (b_code F) pos (genk F k r pos' tb tc) -> T (R q st (r + 1)) ->
  ok q r0 st0 pos0 w0 fs0 st (pos + size_clauses k) w fs E).
  { induction k as [|b|c b k IHk]; intros r0 st0 pos0 w0 fs0 st pos w fs E r tb tc pos' O R0 ND P0 PE HS TT.
    - cbn. rewrite Z.add_0_r. exact O.
    - autorewrite with cgen csize in *. apply has_cons_inv in HS. destruct HS as (OP & _). cbn [need_clauses] in ND.
      pose proof (proj1 (proj1 (proj2 (size_pos tbl F)) b)).
      eapply (i_testjmp q d FO) in O; [|exact OP|unfold rok; lia|lia|lia]. rewrite TT in O. replace (pos + (1 + size_all b)) with (pos + size_all b + 1) by lia. exact O.
    - autorewrite with cgen csize in *. apply has_cons_inv in HS. destruct HS as (OP & HS). cbn [need_clauses] in ND.
      pose proof (proj1 (proj1 (proj2 (size_pos tbl F)) b)). pose proof (proj1 (size_pos tbl F) c). pose proof (proj2 (proj2 (size_pos tbl F)) k).
      pose proof (proj1 need_nonneg c).
      eapply (i_testjmp q d FO) in O; [|exact OP|unfold rok; lia|lia|lia]. rewrite TT in O.
      apply has_app_inv in HS. destruct HS as (_ & HS). rewrite (proj1 (zlen_gen tbl F)) in HS. 
      apply has_app_inv in HS. destruct HS as (_ & HS). change (zlen [I O_NOTJMP (r + 1) (size_all b)]) with 1 in HS.
      apply has_app_inv in HS. destruct HS as (_ & HS). rewrite (proj1 (proj1 (proj2 (zlen_gen tbl F)) b)) in HS.
      eapply IHk in O; [|exact R0|lia|lia|lia|eapply has_eq; [exact HS|lia]|exact TT]. 
      replace (pos + (1 + size c + 1 + size_all b + size_clauses k)) with (pos + (size c + 1 + size_all b) + 1 + size_clauses k) by lia. exact O. }
  intros k r0 st0 pos0 w0 fs0 st pos w fs E r tb tc. apply X.
Qed.
End Part.
(** ** one more unit of fuel *)
Lemma ok_pos q r st pos w fs st' p w' fs' E p' : ok q r st pos w fs st' p w' fs' E -> p = p' -> ok q r st pos w fs st' p' w' fs' E.
Proof. intros O <-. exact O. Qed.
Lemma eval_eq (n d : nat) (self : Z) (u : env) (w : W) (E : env) (cv : option Z) (e : exp) : eval (S n) d self u w E cv e = match e with
      | ELit v => Ok (w, E, Val (Some v))
      | EVar x => liftv E (getvar H w E x)
      | EUp x => liftv E (getup H w u x)
      | ESelf => Ok (w, E, Val (Some self))
      | EBin p a b =>
          withv (eval n d self u w E cv a) (fun w E x => withv (eval n d self u w E None b) (fun w E y => lift E (bin_op H p w x y)))
      | ENot a => withv (eval n d self u w E cv a) (fun w E x => Ok (w, E, bool_val (negb (truth x))))
      | EBitn a => withv (eval n d self u w E cv a) (fun w E x =>
                     if PN_IS_INT x then Ok (w, E, Val (Some (PN_NUM (- PN_INT x - 1))))
                     else lift E (prim_val H P_bitn w [x]))
      | EAnd a b => withv (eval n d self u w E cv a) (fun w E x =>
                      if truth x then eval n d self u w E (Some x) b else Ok (w, E, Val (Some x)))
      | EOr a b => withv (eval n d self u w E cv a) (fun w E x =>
                      if truth x then Ok (w, E, Val (Some x)) else eval n d self u w E (Some x) b)
      | ESet x e => withv (eval n d self u w E cv e) (fun w E v =>
                      do r <- setvar H w E x v; Ok (fst r, snd r, Val (Some v)))
      | EUpSet x e => withv (eval n d self u w E cv e) (fun w E v =>
                      do w <- setup H w u x v; Ok (w, E, Val (Some v)))
      | EGlob x e => withv (eval n d self u w E None e) (fun w E v =>
                      do r <- h_prim H P_global w [x; v]; Ok (fst r, E, Val (Some v)))
      | EInc x up post =>
          do old <- getvar H w E x;
          do r <- bin_op H PLUS (fst old) (snd old) (PN_NUM (if up then 1 else -1));
          match snd r with
          | Val (Some v) =>
              do y <- setvar H (fst r) E x v;
              Ok (fst y, snd y, Val (Some (if post then snd old else v)))
          | o => Ok (fst r, E, o)
          end
      | EPath m => liftv E (h_prim H P_obj_get w [self; m])
      | EPathOf e m => withv (eval n d self u w E cv e) (fun w E v => liftv E (h_prim H P_obj_get w [v; m]))
      (* an assignment to a field has the object as its value *)
      | EPathSet m e => withv (eval n d self u w E None e) (fun w E v =>
                          do r <- h_prim H P_obj_set w [self; m; v]; Ok (fst r, E, Val (Some self)))
      | EList es =>
          do t <- h_prim H P_tuple w [];
          evlist n d self u (fst t) E (snd t) es
      | ESend e m es =>
          withv (eval n d self u w E cv e) (fun w E v =>
            do cl <- h_prim H P_message w [v; m];
            evcall n d self u (fst cl) E (snd cl) v es)
      (* without parentheses the method is passed one nil *)
      | ESend0 e m =>
          withv (eval n d self u w E cv e) (fun w E v =>
            do cl <- h_prim H P_bind w [v; m];
            lift E (call n d (fst cl) (snd cl) v [PN_NIL]))
      | ESelfSend m es =>
          do cl <- h_prim H P_message w [self; m];
          evcall n d self u (fst cl) E (snd cl) self es
      | ESelfSend0 m =>
          do cl <- h_prim H P_bind w [self; m];
          lift E (call n d (fst cl) (snd cl) self [PN_NIL])
      | ECallVar x es => do f <- getvar H w E x; evcall n d self u (fst f) E (snd f) self es
      | ECallUp x es => do f <- getup H w u x; evcall n d self u (fst f) E (snd f) self es
      | ECallVal e es => withv (eval n d self u w E cv e) (fun w E v => evcall n d self u w E v self es)
      | EIf c b k =>
          withv (eval n d self u w E None c) (fun w E x =>
            if truth x then evals n d self u w E cv b else evalk n d self u w E cv k)
      | EWhile c b =>
          withv (eval n d self u w E None c) (fun w E x =>
            if truth x then
              match evals n d self u w E cv b with
              | Ok (w, E, Val ov) => eval n d self u w E ov (EWhile c b)
              | Ok (w, E, Cnt) => eval n d self u w E None (EWhile c b)
              | Ok (w, E, Brk) => Ok (w, E, Val None)
              | r => r
              end
            else Ok (w, E, Val cv))
      | ELoop b =>
          match evals n d self u w E cv b with
          | Ok (w, E, Val ov) => eval n d self u w E ov (ELoop b)
          | Ok (w, E, Cnt) => eval n d self u w E None (ELoop b)
          | Ok (w, E, Brk) => Ok (w, E, Val None)
          | r => r
          end
      | EBreak => Ok (w, E, Brk)
      | ECont => Ok (w, E, Cnt)
      | EReturn e => withv (eval n d self u w E cv e) (fun w E v => Ok (w, E, Ret v))
      | ESeq es => evals n d self u w E cv es
      | ELick m es =>
          do r <- evargs n d self u w E [] es;
          match r with
          | Stop r => Ok r
          | More w E vs => liftv E (h_prim H P_lick w [m; nth 0 vs PN_NIL; nth 1 vs PN_NIL])
          end
      | EAt up x k =>
          do t <- (if up then getup H w u x else getvar H w E x);
          match k with
          | AInt i => liftv E (h_prim H P_tuple_at (fst t) [snd t; PN_NUM i])
          | AVar y =>
              do v <- getvar H (fst t) E y;
              if word (snd v) && PN_IS_INT (snd v)
              then liftv E (h_prim H P_tuple_at (fst v) [snd t; snd v]) else UB
          | AKey v => liftv E (h_prim H P_table_at (fst t) [snd t; v])
          end
      | EFun l ps b =>
          do x <- share H u w E (capt l);
          let '(w, E, rs) := x in
          liftv E (h_prim H (P_closure l) w rs)
      end.
Proof. reflexivity. Qed.

Lemma evals_eq (n d : nat) (self : Z) (u : env) (w : W) (E : env) (cv : option Z) (es : exps) : evals (S n) d self u w E cv es = match es with
             | Nil => Ok (w, E, Val cv)
             | Cons e es => witho (eval n d self u w E cv e) (fun w E cv => evals n d self u w E cv es)
             end.
Proof. reflexivity. Qed.

Lemma evalk_eq (n d : nat) (self : Z) (u : env) (w : W) (E : env) (cv : option Z) (k : clauses) : evalk (S n) d self u w E cv k = match k with
             | KEnd => Ok (w, E, Val cv)
             | KElse b => evals n d self u w E cv b
             | KElsif c b k =>
                 withv (eval n d self u w E None c) (fun w E x =>
                   if truth x then evals n d self u w E cv b else evalk n d self u w E cv k)
             end.
Proof. reflexivity. Qed.

Lemma evlist_eq (n d : nat) (self : Z) (u : env) (w : W) (E : env) (t : Z) (es : exps) : evlist (S n) d self u w E t es = match es with
             | Nil => Ok (w, E, Val (Some t))
             | Cons e es =>
                 withv (eval n d self u w E None e) (fun w E v =>
                   do t <- h_prim H P_push w [t; v]; evlist n d self u (fst t) E (snd t) es)
             end.
Proof. reflexivity. Qed.

Lemma evargs_eq (n d : nat) (self : Z) (u : env) (w : W) (E : env) (vs : list Z) (es : exps) : evargs (S n) d self u w E vs es = match es with
             | Nil => Ok (More w E vs)
             | Cons e es =>
                 match eval n d self u w E None e with
                 | Ok (w, E, Val (Some v)) => evargs n d self u w E (vs ++ [v]) es
                 | Ok (w, E, Val None) => UB
                 | Ok r => Ok (Stop r)
                 | UB => UB
                 | NoFuel => NoFuel
                 end
             end.
Proof. reflexivity. Qed.

Lemma evcall_eq (n d : nat) (self : Z) (u : env) (w : W) (E : env) (cl slf : Z) (es : exps) : evcall (S n) d self u w E cl slf es = do r <- evargs n d self u w E [] es;
             match r with
             | Stop r => Ok r
             | More w E vs => lift E (call n d w cl slf vs)
             end.
Proof. reflexivity. Qed.
Lemma truthy_val n d self u w E cv e w' E' v : truth self = true -> truthy e = true -> eval n d self u w E cv e = Ok (w', E', Val (Some v)) -> T v.
Proof.
  intros TS TE EV. destruct n as [|n]; [discriminate EV|]. destruct e; try discriminate TE; rewrite eval_eq in EV; injection EV as _ _ <-; [exact TE|].
  unfold T. rewrite <- truth_test. exact TS.
Qed.
Lemma fself q d : fok q d -> truth (fr_self q) = true. Proof. intros K. apply K. Qed.

Ltac szs F := repeat match goal with
  | a : exp |- _ => lazymatch goal with _ : 0 <= size a |- _ => fail | _ => pose proof (proj1 (size_pos tbl F) a) end
  | a : exps |- _ => lazymatch goal with _ : 0 <= size_all a |- _ => fail | _ => destruct (proj1 (proj2 (size_pos tbl F)) a) as (? & ?) end
  | a : clauses |- _ => lazymatch goal with _ : 0 <= size_clauses a |- _ => fail | _ => pose proof (proj2 (proj2 (size_pos tbl F)) a) end
  end.
Ltac nn := repeat match goal with
  | a : exp |- _ => lazymatch goal with _ : 0 <= need a |- _ => fail | _ => pose proof (proj1 need_nonneg a) end
  | a : exps |- _ => lazymatch goal with _ : 0 <= need_all a |- _ => fail | _ => destruct (proj1 (proj2 need_nonneg) a) as (? & ? & ? & ?) end
  | a : clauses |- _ => lazymatch goal with _ : 0 <= need_clauses a |- _ => fail | _ => pose proof (proj2 (proj2 need_nonneg) a) end
  end.
Ltac hsp := repeat match goal with
  | X : has _ _ (_ ++ _) |- _ => apply has_app_inv in X; let X2 := fresh "HS" in destruct X as (X & X2)
  | X : has _ _ (_ :: _) |- _ => apply has_cons_inv in X; let OP := fresh "OP" in destruct X as (OP & X)
  | X : has _ _ [] |- _ => clear X
  end;
  repeat match goal with
  | X : context [zlen (CodeGen.gen tbl ?F ?e ?r ?p ?a ?b)] |- _ => rewrite (proj1 (zlen_gen tbl F)) in X
  | X : context [zlen (CodeGen.gens tbl ?F ?e ?r ?p ?a ?b)] |- _ => rewrite (proj1 (proj1 (proj2 (zlen_gen tbl F)) e)) in X
  | X : context [zlen (CodeGen.geni tbl ?F ?e ?r ?p ?a ?b)] |- _ => rewrite (proj1 (proj2 (proj1 (proj2 (zlen_gen tbl F)) e))) in X
  | X : context [zlen (CodeGen.gena tbl ?F ?e ?r ?p ?a ?b)] |- _ => rewrite (proj2 (proj2 (proj1 (proj2 (zlen_gen tbl F)) e))) in X
  | X : context [zlen (@nil instr)] |- _ => change (zlen (@nil instr)) with 0 in X
  | X : context [zlen [?i]] |- _ => change (zlen [i]) with 1 in X
  | X : context [zlen [?i; ?j]] |- _ => change (zlen [i; j]) with 2 in X
  | X : context [zlen [?i; ?j; ?k]] |- _ => change (zlen [i; j; k]) with 3 in X
  end.
Ltac st0 eqn := 
  let q := fresh "q" in intros q d r pos tb tc st fs w E cv res PC CV HS GK EV; destruct PC as [FO R0 ND P0 PE LM IV FS];
  rewrite eqn in EV; cbv beta iota in EV; autorewrite with cgen csize cgok in *; 
  cbn [need need_all need_items need_args need_clauses keeps keeps_all] in *; cbv zeta in HS; szs (fr_f q); nn;
  pose proof (ok_refl H tbl is_str STR0 q r st pos w fs E IV FS) as O0;
  pose proof (SM q d FO) as (SMc & SMv & SMl & SMu & SMp & SMs);
  repeat match goal with G : _ /\ _ |- _ => match type of G with lim _ _ => fail 1 | _ => destruct G end end; hsp.
Ltac at_ := eapply gnth_eq; [eassumption|lia].
Ltac rk := unfold rok; lia.
Ltac sube IH O r1 p := eapply (ok_pos _ _ _ _ _ _ _ _ _ _ _ p) in O; [|lia];
  match goal with EV : withv _ _ = Ok _ |- _ => eapply (sub_e _ _ _ ltac:(eassumption) IH _ _ _ _ _ _ _ _ _ _ r1 _ _ _ _ _ _ O) in EV;
   [|lia|lia|lia|lia|lia|eassumption|eapply has_eq; [eassumption|lia]|assumption|try (intros; discriminate)] end.

Section Step.
Context (n : nat) (IHn : all n).
Let IE : SE n. Proof. apply IHn. Qed.
Let IS : SS n. Proof. apply IHn. Qed.
Let IK : SK n. Proof. apply IHn. Qed.
Let IL : SL n. Proof. apply IHn. Qed.
Let IA : SA n. Proof. apply IHn. Qed.
Let IC : SC n. Proof. apply IHn. Qed.
Let ICO : CO n. Proof. apply IHn. Qed.
Definition case (e : exp) : Prop := forall q d r pos tb tc st fs w E cv res, pc q d r pos (size e) (need e) tb tc st E fs ->
  (forall v, cv = Some v -> R q st r = v) -> has (b_code (fr_f q)) pos (gen (fr_f q) e r pos tb tc) -> gok (fr_f q) e ->
  eval (S n) d (fr_self q) (fr_u q) w E cv e = Ok res -> post q r st pos w fs (size e) (keeps e) tb tc res.

Lemma c_lit v : case (ELit v).
Proof.
  st0 eval_eq. injection EV as <-. destruct (imm v) eqn:IM.
  - destruct (i_loadpn q d FO _ _ _ _ _ _ _ _ _ _ r v O0 ltac:(at_)) as (st1 & O1 & V1 & B1); [lia|rk|]. eapply fin_val; [exact O1|lia| |].
    + intros v' Q. injection Q as <-. rewrite V1. unfold imm in IM. apply andb_prop in IM. lia.
    + intros _. rewrite B1 by lia. auto.
  - destruct (i_loadk q d FO _ _ _ _ _ _ _ _ _ _ r v O0 ltac:(at_) (GK eq_refl)) as (st1 & O1 & V1 & B1); [lia|rk|]. eapply fin_val; [exact O1|lia| |].
    + intros v' Q. injection Q as <-. exact V1.
    + intros _. rewrite B1 by lia. auto.
Qed.
Lemma c_var x : case (EVar x).
Proof.
  st0 eval_eq. apply bind_inv in EV. destruct EV as ((w1, v1) & G & Q). injection Q as <-.
  destruct (i_getlocal q d FO _ _ _ _ _ _ _ _ _ _ r x _ _ O0 ltac:(at_) GK ltac:(lia) ltac:(rk) G) as (st1 & O1 & V1 & B1). eapply fin_val; [exact O1|lia| |].
  - intros v' Q. injection Q as <-. exact V1.
  - intros _. rewrite B1 by lia. auto.
Qed.
Lemma c_up x : case (EUp x).
Proof.
  st0 eval_eq. apply bind_inv in EV. destruct EV as ((w1, v1) & G & Q). injection Q as <-.
  destruct (i_getupval q d FO _ _ _ _ _ _ _ _ _ _ r x _ _ O0 ltac:(at_) GK ltac:(lia) ltac:(rk) G) as (st1 & O1 & V1 & B1). eapply fin_val; [exact O1|lia| |].
  - intros v' Q. injection Q as <-. exact V1.
  - intros _. rewrite B1 by lia. auto.
Qed.
Lemma c_self : case ESelf.
Proof.
  st0 eval_eq. injection EV as <-.
  destruct (i_self q d FO _ _ _ _ _ _ _ _ _ _ r O0 ltac:(at_) ltac:(lia) ltac:(rk)) as (st1 & O1 & V1 & B1). eapply fin_val; [exact O1|lia| |].
  - intros v' Q. injection Q as <-. exact V1.
  - intros _. rewrite B1 by lia. auto.
Qed.
Lemma c_bin p a b : case (EBin p a b).
Proof.
  st0 eval_eq. sube IE O0 r pos; [|exact CV]. destruct EV as [(NV & PS)|(w1 & E1 & x & st1 & fs1 & EQ1 & EV & O1 & V1 & B1 & K1)]; [apply PS|].
  sube IE O1 (r + 1) (pos + size a). destruct EV as [(NV & PS)|(w2 & E2 & y & st2 & fs2 & EQ2 & EV & O2 & V2 & B2 & K2)]; [apply PS|].
  apply bind_inv in EV. destruct EV as ((w3, o3) & BO & Q). injection Q as <-.
  assert (VX : R q st2 r = x) by (rewrite B2 by lia; exact V1).
  destruct (bin_sim H p w2 x y _ ltac:(eassumption) BO) as [(v & Q & BB)|(v & Q & BB)]; cbn [fst snd] in Q, BB; subst o3.
  - destruct (i_bin q d FO _ _ _ _ _ _ _ _ _ _ (opcode p) r (r + 1) v w3 O2 ltac:(at_)) as (st3 & O3 & V3 & B3); [apply is_bin_opcode; assumption|lia|rk|rk|rewrite VX, V2; exact BB|].
    eapply fin_val; [exact O3|lia| |].
    + intros v' Q. injection Q as <-. exact V3.
    + intros TB _. rewrite B3 by lia. rewrite V2. eapply truthy_val; [eapply fself, FO|exact TB|exact EQ2].
  - unfold post. cbn [snd]. eapply (i_bin_err q d FO); [exact O2|at_|apply is_bin_opcode; assumption|rk|rk|rewrite VX, V2; exact BB].
Qed.
Lemma c_not a : case (ENot a).
Proof.
  st0 eval_eq. sube IE O0 r pos; [|exact CV]. destruct EV as [(NV & PS)|(w1 & E1 & x & st1 & fs1 & EQ1 & EV & O1 & V1 & B1 & K1)]; [apply PS|].
  injection EV as <-. destruct (i_not q d FO _ _ _ _ _ _ _ _ _ _ r O1 ltac:(at_) ltac:(lia) ltac:(rk)) as (st2 & O2 & V2 & B2).
  eapply fin_val; [exact O2|lia| |].
  - intros v' Q. injection Q as <-. rewrite V2, V1, <- truth_test. reflexivity.
  - intros KA TB. rewrite B2 by lia. auto.
Qed.
Lemma c_bitn a : case (EBitn a).
Proof.
  st0 eval_eq. sube IE O0 r pos; [|exact CV]. destruct EV as [(NV & PS)|(w1 & E1 & x & st1 & fs1 & EQ1 & EV & O1 & V1 & B1 & K1)]; [apply PS|].
  assert (X : exists w2 v2, res = (w2, E1, Val (Some v2)) /\ (if PN_IS_INT x then Ok (w1, num_bitn x) else h_prim H P_bitn w1 [x]) = Ok (w2, v2)).
  { destruct (PN_IS_INT x).
    - injection EV as <-. exists w1. eexists. split; [reflexivity|]. unfold num_bitn. do 3 f_equal.
    - apply bind_inv in EV. destruct EV as ((w2, o2) & Q & Q1). unfold prim_val in Q. apply bind_inv in Q. destruct Q as ((w3, v3) & Q & Q2). 
      injection Q2 as <- <-. injection Q1 as <-. exists w3, v3. split; [reflexivity|exact Q]. }
  destruct X as (w2 & v2 & -> & X).
  destruct (i_bitn q d FO _ _ _ _ _ _ _ _ _ _ r v2 w2 O1 ltac:(at_) ltac:(lia) ltac:(rk)) as (st2 & O2 & V2 & B2); [rewrite V1; exact X|].
  eapply fin_val; [exact O2|lia| |].
  - intros v' Q. injection Q as <-. exact V2.
  - intros KA TB. rewrite B2 by lia. auto.
Qed.
Lemma tail_e q d r0 st0 pos0 w0 fs0 st pos w fs E e cv tb tc sz kp res : fok q d -> 
  ok q r0 st0 pos0 w0 fs0 st pos w fs E -> 0 <= r0 -> r0 + need e < b_stack (fr_f q) -> 0 <= pos -> pos + size e <= zlen (b_code (fr_f q)) -> lim tb tc ->
  has (b_code (fr_f q)) pos (gen (fr_f q) e r0 pos tb tc) -> gok (fr_f q) e -> (forall v, cv = Some v -> R q st r0 = v) ->
  eval n d (fr_self q) (fr_u q) w E cv e = Ok res -> pos + size e = pos0 + sz ->
  (kp = true -> T (R q st0 (r0 + 1)) -> keeps e = true /\ T (R q st (r0 + 1))) -> post q r0 st0 pos0 w0 fs0 sz kp tb tc res.
Proof.
  intros FO O R0 ND P0 PE LM HS GK CV EV SZ KP. eapply (post_seq q d FO); [exact O| |exact SZ|exact KP].
  eapply (IE q d); try eassumption. split; try assumption; apply O.
Qed.
Lemma c_and a b : case (EAnd a b).
Proof.
  st0 eval_eq. sube IE O0 r pos; [|exact CV]. destruct EV as [(NV & PS)|(w1 & E1 & x & st1 & fs1 & EQ1 & EV & O1 & V1 & B1 & K1)]; [apply PS|].
  apply (i_notjmp q d FO _ _ _ _ _ _ _ _ _ _ r (size b)) in O1; [|at_|rk|lia|lia]. rewrite V1, <- truth_test in O1.
  destruct (truth x).
  - eapply (tail_e q d r _ _ _ _ _ _ _ _ _ b); [exact FO|exact O1|lia|lia|lia|lia|exact LM|eassumption|assumption| |exact EV|lia|].
    + intros v Q. injection Q as <-. exact V1.
    + intros KK TT. apply andb_prop in KK. destruct KK. auto.
  - injection EV as <-. eapply fin_val; [exact O1|lia| |].
    + intros v Q. injection Q as <-. exact V1.
    + intros KK TT. apply andb_prop in KK. destruct KK. auto.
Qed.
Lemma c_or a b : case (EOr a b).
Proof.
  st0 eval_eq. sube IE O0 r pos; [|exact CV]. destruct EV as [(NV & PS)|(w1 & E1 & x & st1 & fs1 & EQ1 & EV & O1 & V1 & B1 & K1)]; [apply PS|].
  apply (i_testjmp q d FO _ _ _ _ _ _ _ _ _ _ r (size b)) in O1; [|at_|rk|lia|lia]. rewrite V1, <- truth_test in O1.
  destruct (truth x).
  - injection EV as <-. eapply fin_val; [exact O1|lia| |].
    + intros v Q. injection Q as <-. exact V1.
    + intros KK TT. apply andb_prop in KK. destruct KK. auto.
  - eapply (tail_e q d r _ _ _ _ _ _ _ _ _ b); [exact FO|exact O1|lia|lia|lia|lia|exact LM|eassumption|assumption| |exact EV|lia|].
    + intros v Q. injection Q as <-. exact V1.
    + intros KK TT. apply andb_prop in KK. destruct KK. auto.
Qed.
Lemma c_set x e : case (ESet x e).
Proof.
  st0 eval_eq. sube IE O0 r pos; [|exact CV]. destruct EV as [(NV & PS)|(w1 & E1 & v & st1 & fs1 & EQ1 & EV & O1 & V1 & B1 & K1)]; [apply PS|].
  apply bind_inv in EV. destruct EV as ((w2, E2) & SV & Q). injection Q as <-.
  destruct (i_setlocal q d FO _ _ _ _ _ _ _ _ _ _ r x v w2 E2 O1 ltac:(at_) ltac:(assumption) ltac:(rk) V1 SV) as (st2 & O2 & B2).
  eapply fin_val; [exact O2|lia| |].
  - intros v' Q. injection Q as <-. rewrite B2 by lia. exact V1.
  - intros KK TT. rewrite B2 by lia. auto.
Qed.
Lemma c_upset x e : case (EUpSet x e).
Proof.
  st0 eval_eq. sube IE O0 r pos; [|exact CV]. destruct EV as [(NV & PS)|(w1 & E1 & v & st1 & fs1 & EQ1 & EV & O1 & V1 & B1 & K1)]; [apply PS|].
  apply bind_inv in EV. destruct EV as (w2 & SV & Q). injection Q as <-.
  eapply (i_setupval q d FO _ _ _ _ _ _ _ _ _ _ r x v) in O1; [|at_|assumption|rk|exact V1|exact SV].
  eapply fin_val; [exact O1|lia| |].
  - intros v' Q. injection Q as <-. exact V1.
  - auto.
Qed.
Lemma c_glob x e : case (EGlob x e).
Proof.
  st0 eval_eq.
  destruct (i_loadk q d FO _ _ _ _ _ _ _ _ _ _ r x O0 ltac:(at_) ltac:(assumption) ltac:(lia) ltac:(rk)) as (sta & Oa & Va & Ba).
  sube IE Oa (r + 1) (pos + 1). destruct EV as [(NV & PS)|(w1 & E1 & v & st1 & fs1 & EQ1 & EV & O1 & V1 & B1 & K1)]; [apply PS|].
  apply bind_inv in EV. destruct EV as ((w2, v2) & SV & Q). injection Q as <-.
  destruct (i_global q d FO _ _ _ _ _ _ _ _ _ _ r (r + 1) v2 w2 O1 ltac:(at_) ltac:(lia) ltac:(rk) ltac:(rk)) as (st2 & O2 & V2 & B2).
  { rewrite B1 by lia. rewrite Va, V1. exact SV. }
  eapply fin_val; [exact O2|lia| |].
  - intros v' Q. injection Q as <-. rewrite V2. exact V1.
  - intros TB _. rewrite B2 by lia. rewrite V1. eapply truthy_val; [eapply fself, FO|exact TB|exact EQ1].
Qed.
Lemma inc_lit up post : u64 (sx12 (Z.lor (inc_word up post) 1)) = PN_NUM (if up then 1 else -1) /\ T (PN_NUM (if up then 1 else -1)).
Proof. destruct up, post; split; vm_compute; reflexivity. Qed.
Lemma c_inc x up post_ : case (EInc x up post_).
Proof.
  st0 eval_eq. apply bind_inv in EV. destruct EV as ((w1, old) & GV & EV). cbn [fst snd] in EV.
  apply bind_inv in EV. destruct EV as ((w2, o2) & BO & EV). cbn [fst snd] in EV.
  destruct (inc_lit up post_) as (LIT & LT).
  destruct (i_getlocal q d FO _ _ _ _ _ _ _ _ _ _ r x old w1 O0 ltac:(at_) GK ltac:(lia) ltac:(destruct post_; rk) GV) as (st1 & O1 & V1 & B1).
  set (b := if post_ then r + 1 else r) in *.
  assert (X : exists st2, ok q r st pos w fs st2 (pos + (if post_ then 2 else 1)) w1 fs E /\ R q st2 b = old /\ R q st2 r = old /\ rok (fr_f q) b /\ rok (fr_f q) (b + 1) /\ r <= b).
  { unfold b. destruct post_.
    - hsp. destruct (i_move q d FO _ _ _ _ _ _ _ _ _ _ (r + 1) r O1 ltac:(at_) ltac:(lia) ltac:(rk) ltac:(rk)) as (st2 & O2 & V2 & B2).
      exists st2. split; [eapply ok_pos; [exact O2|lia]|]. split; [rewrite V2; exact V1|]. split; [rewrite B2 by lia; exact V1|]. unfold rok; lia.
    - exists st1. split; [exact O1|]. split; [exact V1|]. split; [exact V1|]. unfold rok; lia. }
  destruct X as (st2 & O2 & V2 & V2' & RB & RB1 & LB).
  assert (Y : gnth (b_code (fr_f q)) (pos + (if post_ then 2 else 1)) = Some (I O_LOADPN (b + 1) (Z.lor (inc_word up post_) 1))
     /\ gnth (b_code (fr_f q)) (pos + (if post_ then 2 else 1) + 1) = Some (I O_ADD b (b + 1))
     /\ gnth (b_code (fr_f q)) (pos + (if post_ then 2 else 1) + 1 + 1) = Some (I O_SETLOCAL b (lx (fr_f q) x))).
  { unfold b. clear O2 V2 RB RB1 LB. destruct post_; hsp; (split; [|split]; (eapply gnth_eq; [eassumption|lia])). }
  destruct Y as (Y1 & Y2 & Y3).
  destruct (i_loadpn q d FO _ _ _ _ _ _ _ _ _ _ _ _ O2 Y1 ltac:(lia) RB1) as (st3 & O3 & V3 & B3). rewrite LIT in V3. pose proof RB as RB'. unfold rok in RB'.
  assert (V3' : R q st3 b = old) by (rewrite B3 by lia; exact V2).
  destruct (bin_sim H PLUS w1 old _ _ eq_refl BO) as [(v & Q & BB)|(v & Q & BB)]; cbn [fst snd opcode] in Q, BB; subst o2.
  - apply bind_inv in EV. destruct EV as ((w3, E3) & SV & Q). injection Q as <-. cbn [fst snd] in *.
    destruct (i_bin q d FO _ _ _ _ _ _ _ _ _ _ _ b (b + 1) v w2 O3 Y2 eq_refl LB RB RB1) as (st4 & O4 & V4 & B4); [rewrite V3, V3'; exact BB|].
    destruct (i_setlocal q d FO _ _ _ _ _ _ _ _ _ _ _ _ v w3 E3 O4 Y3 GK RB V4 SV) as (st5 & O5 & B5).
    eapply fin_val; [exact O5|destruct post_; lia| |].
    + intros v' Q. injection Q as <-. rewrite B5 by lia. unfold b in *. destruct post_.
      * rewrite B4 by lia. rewrite B3 by lia. exact V2'.
      * exact V4.
    + intros KK _. unfold b in *. destruct post_; [discriminate KK|]. rewrite B5 by lia. rewrite B4 by lia. rewrite V3. exact LT.
  - injection EV as <-. unfold post. cbn [snd]. eapply (i_bin_err q d FO); [exact O3|exact Y2|reflexivity|exact RB|exact RB1|rewrite V3, V3'; exact BB].
Qed.
Lemma c_path m : case (EPath m).
Proof.
  st0 eval_eq. apply bind_inv in EV. destruct EV as ((w1, v1) & G & Q). injection Q as <-.
  destruct (i_self q d FO _ _ _ _ _ _ _ _ _ _ r O0 ltac:(at_) ltac:(lia) ltac:(rk)) as (st1 & O1 & V1 & B1).
  destruct (i_loadk q d FO _ _ _ _ _ _ _ _ _ _ (r + 1) m O1 ltac:(at_) ltac:(assumption) ltac:(lia) ltac:(rk)) as (st2 & O2 & V2 & B2).
  destruct (i_prim2 q d FO O_GETPATH P_obj_get _ _ _ _ _ _ _ _ _ _ r (r + 1) v1 w1 O2 ltac:(at_) ltac:(auto) ltac:(lia) ltac:(rk) ltac:(rk)) as (st3 & O3 & V3 & B3).
  { rewrite B2, V1, V2 by lia. exact G. }
  eapply fin_val; [exact O3|lia| |].
  - intros v' Q. injection Q as <-. exact V3.
  - intros KK _. rewrite B3 by lia. rewrite V2. exact KK.
Qed.
Lemma c_pathof e m : case (EPathOf e m).
Proof.
  st0 eval_eq. sube IE O0 r pos; [|exact CV]. destruct EV as [(NV & PS)|(w0 & E1 & v & st1 & fs1 & EQ1 & EV & O1 & V1 & B1 & K1)]; [apply PS|].
  apply bind_inv in EV. destruct EV as ((w1, v1) & G & Q). injection Q as <-.
  destruct (i_loadk q d FO _ _ _ _ _ _ _ _ _ _ (r + 1) m O1 ltac:(at_) ltac:(assumption) ltac:(lia) ltac:(rk)) as (st2 & O2 & V2 & B2).
  destruct (i_prim2 q d FO O_GETPATH P_obj_get _ _ _ _ _ _ _ _ _ _ r (r + 1) v1 w1 O2 ltac:(at_) ltac:(auto) ltac:(lia) ltac:(rk) ltac:(rk)) as (st3 & O3 & V3 & B3).
  { rewrite B2, V1, V2 by lia. exact G. }
  eapply fin_val; [exact O3|lia| |].
  - intros v' Q. injection Q as <-. exact V3.
  - intros KK _. rewrite B3 by lia. rewrite V2. exact KK.
Qed.
Lemma c_pathset m e : case (EPathSet m e).
Proof.
  st0 eval_eq.
  destruct (i_self q d FO _ _ _ _ _ _ _ _ _ _ r O0 ltac:(at_) ltac:(lia) ltac:(rk)) as (st1 & O1 & V1 & B1).
  destruct (i_loadk q d FO _ _ _ _ _ _ _ _ _ _ (r + 1) m O1 ltac:(at_) ltac:(assumption) ltac:(lia) ltac:(rk)) as (st2 & O2 & V2 & B2).
  sube IE O2 (r + 2) (pos + 2). destruct EV as [(NV & PS)|(w3 & E3 & v & st3 & fs3 & EQ3 & EV & O3 & V3 & B3 & K3)]; [apply PS|].
  apply bind_inv in EV. destruct EV as ((w4, v4) & G & Q). injection Q as <-.
  eapply (i_setpath q d FO _ _ _ _ _ _ _ _ _ _ r (r + 2) v4 w4) in O3; [|at_|rk|rk|rk|].
  2:{ rewrite !B3, V2, V3 by lia. rewrite B2 by lia. rewrite V1. exact G. }
  eapply fin_val; [exact O3|lia| |].
  - intros v' Q. injection Q as <-. rewrite B3, B2 by lia. exact V1.
  - intros KK _. rewrite B3 by lia. rewrite V2. exact KK.
Qed.
Lemma c_list es : case (EList es).
Proof.
  st0 eval_eq. apply bind_inv in EV. destruct EV as ((w1, t) & G & EV). cbn [fst snd] in EV.
  destruct (i_newtuple q d FO _ _ _ _ _ _ _ _ _ _ r t w1 O0 ltac:(at_) ltac:(lia) ltac:(rk) G) as (st1 & O1 & V1 & B1).
  assert (X := IL q d r (pos + 1) tb tc st1 fs w1 E t es res).
  destruct res as ((w2, E2), o2). cbn [fst snd] in X.
  assert (Y : match o2 with Val ov => exists st' fs', ok q r st1 (pos + 1) w1 fs st' (pos + 1 + size_items es) w2 fs' E2 /\ (forall v, ov = Some v -> R q st' r = v)
     /\ (truthy_last es = true -> (es = Nil -> T (R q st1 (r + 1))) -> T (R q st' (r + 1))) | _ => stop q r st1 (pos + 1) w1 fs tb tc (w2, E2, o2) end).
  { apply X; try assumption; [|rk]. split; try assumption; try lia; apply O1. }
  unfold post. cbn [snd fst]. destruct o2 as [ov| | |v|v].
  1:{ destruct Y as (st2 & fs2 & O2 & V2 & K2). exists st2, fs2. split; [|split; [exact V2|]].
      - eapply ok_pos; [eapply (ok_trans H tbl is_str STR0 q); [exact O1|exact O2|lia]|lia].
      - intros KK TT. apply K2; [exact KK|]. intros _. rewrite B1 by lia. exact TT. }
  all: eapply (stop_ok H tbl is_str STR0 M q d FO); [exact O1|exact Y|lia].
Qed.
Lemma call_tail q d r0 st0 pos0 w0 fs0 st pos w fs E cl slf es tb tc sz kp res : fok q d ->
  ok q r0 st0 pos0 w0 fs0 st pos w fs E -> 0 <= r0 -> r0 + (1 + need_args es) < b_stack (fr_f q) -> 0 <= pos -> pos + (size_all es + 1) <= zlen (b_code (fr_f q)) -> lim tb tc ->
  has (b_code (fr_f q)) pos (gena (fr_f q) es (r0 + 1) pos tb tc) -> gnth (b_code (fr_f q)) (pos + size_all es) = Some (I O_CALL r0 (r0 + 1 + elen es)) ->
  gok_all (fr_f q) es -> R q st r0 = cl -> R q st (r0 + 1) = slf ->
  evcall n d (fr_self q) (fr_u q) w E cl slf es = Ok res -> pos + (size_all es + 1) = pos0 + sz -> (kp = true -> T slf) ->
  post q r0 st0 pos0 w0 fs0 sz kp tb tc res.
Proof.
  intros FO O R0 ND P0 PE LM HS OP GK A B EV SZ KP. eapply (post_seq q d FO); [exact O| |exact SZ|].
  - eapply (IC q d); try eassumption; [split; try assumption; apply O|]. apply has_app; [exact HS|].
    rewrite (proj2 (proj2 (proj1 (proj2 (zlen_gen tbl (fr_f q))) es))). apply has_cons; [exact OP|apply has_nil].
  - intros K _. split; [reflexivity|]. rewrite B. auto.
Qed.
Lemma c_send e m es : case (ESend e m es).
Proof.
  st0 eval_eq. sube IE O0 r pos; [|exact CV]. destruct EV as [(NV & PS)|(w1 & E1 & v & st1 & fs1 & EQ1 & EV & O1 & V1 & B1 & K1)]; [apply PS|].
  apply bind_inv in EV. destruct EV as ((w2, cl) & G & EV). cbn [fst snd] in EV.
  destruct (i_move q d FO _ _ _ _ _ _ _ _ _ _ (r + 1) r O1 ltac:(at_) ltac:(lia) ltac:(rk) ltac:(rk)) as (st2 & O2 & V2 & B2).
  destruct (i_loadk q d FO _ _ _ _ _ _ _ _ _ _ r m O2 ltac:(at_) ltac:(assumption) ltac:(lia) ltac:(rk)) as (st3 & O3 & V3 & B3).
  destruct (i_look q d FO O_MSG P_message _ _ _ _ _ _ _ _ _ _ r (r + 1) cl w2 O3 ltac:(at_) ltac:(auto) ltac:(lia) ltac:(rk) ltac:(rk)) as (st4 & O4 & V4 & B4).
  { rewrite V3, B3, V2, V1 by lia. exact G. }
  eapply (ok_pos _ _ _ _ _ _ _ _ _ _ _ (pos + size e + 3)) in O4; [|lia].
  eapply (call_tail q d r _ _ _ _ _ _ _ _ _ cl v es); [exact FO|exact O4|lia|lia|lia|lia|exact LM|eapply has_eq; [eassumption|lia]|at_|assumption|exact V4| |exact EV|lia|].
  - rewrite B4, B3, V2 by lia. exact V1.
  - intros TB. eapply truthy_val; [eapply fself, FO|exact TB|exact EQ1].
Qed.
Lemma c_selfsend m es : case (ESelfSend m es).
Proof.
  st0 eval_eq. apply bind_inv in EV. destruct EV as ((w2, cl) & G & EV). cbn [fst snd] in EV.
  destruct (i_self q d FO _ _ _ _ _ _ _ _ _ _ (r + 1) O0 ltac:(at_) ltac:(lia) ltac:(rk)) as (st2 & O2 & V2 & B2).
  destruct (i_loadk q d FO _ _ _ _ _ _ _ _ _ _ r m O2 ltac:(at_) ltac:(assumption) ltac:(lia) ltac:(rk)) as (st3 & O3 & V3 & B3).
  destruct (i_look q d FO O_MSG P_message _ _ _ _ _ _ _ _ _ _ r (r + 1) cl w2 O3 ltac:(at_) ltac:(auto) ltac:(lia) ltac:(rk) ltac:(rk)) as (st4 & O4 & V4 & B4).
  { rewrite V3, B3, V2 by lia. exact G. }
  eapply (ok_pos _ _ _ _ _ _ _ _ _ _ _ (pos + 3)) in O4; [|lia].
  eapply (call_tail q d r _ _ _ _ _ _ _ _ _ cl (fr_self q) es); [exact FO|exact O4|lia|lia|lia|lia|exact LM|eapply has_eq; [eassumption|lia]|at_|assumption|exact V4| |exact EV|lia|].
  - rewrite B4, B3 by lia. exact V2.
  - intros _. unfold T. rewrite <- truth_test. eapply fself, FO.
Qed.
Lemma c_callvar x es : case (ECallVar x es).
Proof.
  st0 eval_eq. apply bind_inv in EV. destruct EV as ((w2, cl) & G & EV). cbn [fst snd] in EV.
  destruct (i_getlocal q d FO _ _ _ _ _ _ _ _ _ _ r x cl w2 O0 ltac:(at_) ltac:(assumption) ltac:(lia) ltac:(rk) G) as (st2 & O2 & V2 & B2).
  destruct (i_self q d FO _ _ _ _ _ _ _ _ _ _ (r + 1) O2 ltac:(at_) ltac:(lia) ltac:(rk)) as (st3 & O3 & V3 & B3).
  eapply (ok_pos _ _ _ _ _ _ _ _ _ _ _ (pos + 2)) in O3; [|lia].
  eapply (call_tail q d r _ _ _ _ _ _ _ _ _ cl (fr_self q) es); [exact FO|exact O3|lia|lia|lia|lia|exact LM|eapply has_eq; [eassumption|lia]|at_|assumption| |exact V3|exact EV|lia|].
  - rewrite B3 by lia. exact V2.
  - intros _. unfold T. rewrite <- truth_test. eapply fself, FO.
Qed.
Lemma c_callup x es : case (ECallUp x es).
Proof.
  st0 eval_eq. apply bind_inv in EV. destruct EV as ((w2, cl) & G & EV). cbn [fst snd] in EV.
  destruct (i_getupval q d FO _ _ _ _ _ _ _ _ _ _ r x cl w2 O0 ltac:(at_) ltac:(assumption) ltac:(lia) ltac:(rk) G) as (st2 & O2 & V2 & B2).
  destruct (i_self q d FO _ _ _ _ _ _ _ _ _ _ (r + 1) O2 ltac:(at_) ltac:(lia) ltac:(rk)) as (st3 & O3 & V3 & B3).
  eapply (ok_pos _ _ _ _ _ _ _ _ _ _ _ (pos + 2)) in O3; [|lia].
  eapply (call_tail q d r _ _ _ _ _ _ _ _ _ cl (fr_self q) es); [exact FO|exact O3|lia|lia|lia|lia|exact LM|eapply has_eq; [eassumption|lia]|at_|assumption| |exact V3|exact EV|lia|].
  - rewrite B3 by lia. exact V2.
  - intros _. unfold T. rewrite <- truth_test. eapply fself, FO.
Qed.
Lemma c_callval e es : case (ECallVal e es).
Proof.
  st0 eval_eq. sube IE O0 r pos; [|exact CV]. destruct EV as [(NV & PS)|(w1 & E1 & cl & st1 & fs1 & EQ1 & EV & O1 & V1 & B1 & K1)]; [apply PS|].
  destruct (i_self q d FO _ _ _ _ _ _ _ _ _ _ (r + 1) O1 ltac:(at_) ltac:(lia) ltac:(rk)) as (st3 & O3 & V3 & B3).
  eapply (call_tail q d r _ _ _ _ _ _ _ _ _ cl (fr_self q) es); [exact FO|exact O3|lia|lia|lia|lia|exact LM|eapply has_eq; [eassumption|lia]|at_|assumption| |exact V3|exact EV|lia|].
  - rewrite B3 by lia. exact V1.
  - intros _. unfold T. rewrite <- truth_test. eapply fself, FO.
Qed.
(** the call without parentheses: one nil *)
Lemma call0 q d r0 st0 pos0 w0 fs0 st pos w fs E cl slf tb tc sz kp w' o : fok q d ->
  ok q r0 st0 pos0 w0 fs0 st pos w fs E -> 0 <= r0 -> r0 + 2 < b_stack (fr_f q) -> 
  gnth (b_code (fr_f q)) pos = Some (I O_LOADPN (r0 + 2) PN_NIL) -> gnth (b_code (fr_f q)) (pos + 1) = Some (I O_CALL r0 (r0 + 2)) ->
  R q st r0 = cl -> R q st (r0 + 1) = slf ->
  call n d w cl slf [PN_NIL] = Ok (w', o) -> pos + 2 = pos0 + sz -> (kp = true -> T slf) ->
  post q r0 st0 pos0 w0 fs0 sz kp tb tc (w', E, o).
Proof.
  intros FO O R0 ND OP1 OP2 A B EV SZ KP.
  destruct (i_loadpn q d FO _ _ _ _ _ _ _ _ _ _ (r0 + 2) PN_NIL O OP1 ltac:(lia) ltac:(rk)) as (st1 & O1 & V1 & B1).
  eapply (post_seq q d FO); [exact O1| |instantiate (1 := 1); lia|].
  - eapply (ICO q d r0 (pos + 1) tb tc st1 fs w E cl slf [PN_NIL]); [exact FO|change (zlen [PN_NIL]) with 1; replace (r0 + 1 + 1) with (r0 + 2) by lia; exact OP2|lia|unfold rok, zlen; cbn [length]; lia|apply O1|apply O1| | | |exact EV].
    + rewrite B1 by lia. exact A.
    + rewrite B1 by lia. exact B.
    + intros i I1. unfold zlen in I1; cbn [length] in I1. assert (i = 0) by lia. subst i. rewrite Z.add_0_r, V1. reflexivity.
  - intros K _. split; [reflexivity|]. rewrite B1 by lia. rewrite B. auto.
Qed.
Lemma c_send0 e m : case (ESend0 e m).
Proof.
  st0 eval_eq. sube IE O0 r pos; [|exact CV]. destruct EV as [(NV & PS)|(w1 & E1 & v & st1 & fs1 & EQ1 & EV & O1 & V1 & B1 & K1)]; [apply PS|].
  apply bind_inv in EV. destruct EV as ((w2, cl) & G & EV). cbn [fst snd] in EV. apply bind_inv in EV. destruct EV as ((w3, o3) & CL & Q). injection Q as <-. cbn [fst snd].
  destruct (i_move q d FO _ _ _ _ _ _ _ _ _ _ (r + 1) r O1 ltac:(at_) ltac:(lia) ltac:(rk) ltac:(rk)) as (st2 & O2 & V2 & B2).
  destruct (i_loadk q d FO _ _ _ _ _ _ _ _ _ _ r m O2 ltac:(at_) ltac:(assumption) ltac:(lia) ltac:(rk)) as (st3 & O3 & V3 & B3).
  destruct (i_look q d FO O_BIND P_bind _ _ _ _ _ _ _ _ _ _ r (r + 1) cl w2 O3 ltac:(at_) ltac:(auto) ltac:(lia) ltac:(rk) ltac:(rk)) as (st4 & O4 & V4 & B4).
  { rewrite V3, B3, V2, V1 by lia. exact G. }
  eapply (call0 q d r _ _ _ _ _ _ _ _ _ cl v); [exact FO|exact O4|lia|lia|at_|at_|exact V4| |exact CL|lia|].
  - rewrite B4, B3, V2 by lia. exact V1.
  - intros TB. eapply truthy_val; [eapply fself, FO|exact TB|exact EQ1].
Qed.
Lemma c_selfsend0 m : case (ESelfSend0 m).
Proof.
  st0 eval_eq. apply bind_inv in EV. destruct EV as ((w2, cl) & G & EV). cbn [fst snd] in EV. apply bind_inv in EV. destruct EV as ((w3, o3) & CL & Q). injection Q as <-. cbn [fst snd].
  destruct (i_self q d FO _ _ _ _ _ _ _ _ _ _ (r + 1) O0 ltac:(at_) ltac:(lia) ltac:(rk)) as (st2 & O2 & V2 & B2).
  destruct (i_loadk q d FO _ _ _ _ _ _ _ _ _ _ r m O2 ltac:(at_) ltac:(assumption) ltac:(lia) ltac:(rk)) as (st3 & O3 & V3 & B3).
  destruct (i_look q d FO O_BIND P_bind _ _ _ _ _ _ _ _ _ _ r (r + 1) cl w2 O3 ltac:(at_) ltac:(auto) ltac:(lia) ltac:(rk) ltac:(rk)) as (st4 & O4 & V4 & B4).
  { rewrite V3, B3, V2 by lia. exact G. }
  eapply (call0 q d r _ _ _ _ _ _ _ _ _ cl (fr_self q)); [exact FO|exact O4|lia|lia|at_|at_|exact V4| |exact CL|lia|].
  - rewrite B4, B3 by lia. exact V2.
  - intros _. unfold T. rewrite <- truth_test. eapply fself, FO.
Qed.
(** a body after which the clauses k are skipped *)
Lemma body_k q d r0 st0 pos0 w0 fs0 st pos w fs E b k cv tb tc sz res : fok q d ->
  ok q r0 st0 pos0 w0 fs0 st pos w fs E -> 0 <= r0 -> r0 + Z.max (need_all b) (need_clauses k) < b_stack (fr_f q) -> 0 <= pos ->
  pos + (size_all b + size_clauses k) <= zlen (b_code (fr_f q)) -> lim tb tc ->
  has (b_code (fr_f q)) pos (gens (fr_f q) b r0 pos tb tc) -> has (b_code (fr_f q)) (pos + size_all b) (genk (fr_f q) k r0 (pos + size_all b) tb tc) ->
  gok_all (fr_f q) b -> (k = KEnd \/ keeps_all b = true) -> (forall v, cv = Some v -> R q st r0 = v) -> T (R q st (r0 + 1)) ->
  evals n d (fr_self q) (fr_u q) w E cv b = Ok res -> pos + (size_all b + size_clauses k) = pos0 + sz ->
  post q r0 st0 pos0 w0 fs0 sz false tb tc res.
Proof.
  intros FO O R0 ND P0 PE LM HS HK GK KK CV TT EV SZ.
  destruct (proj1 (proj2 (size_pos tbl (fr_f q))) b) as (SB & _). pose proof (proj2 (proj2 (size_pos tbl (fr_f q))) k) as SK0.
  eapply (sub_s n q d FO IS r0 _ _ _ _ _ _ _ _ _ r0 b) in EV; [|exact O|lia|lia|lia|lia|lia|exact LM|exact HS|exact GK|exact CV].
  destruct EV as [(NV & SP)|(w1 & E1 & ov & st1 & fs1 & -> & O1 & V1 & K1)].
  - destruct res as ((w1, E1), o1). destruct o1; [exfalso; eapply NV; reflexivity| | | |]; exact SP.
  - assert (O2 : ok q r0 st0 pos0 w0 fs0 st1 (pos + size_all b + size_clauses k) w1 fs1 E1).
    { destruct KK as [->|KB]; [eapply ok_pos; [exact O1|cbn; lia]|]. eapply (skip_k q d FO k _ _ _ _ _ _ _ _ _ _ r0); [exact O1|lia|lia|lia|lia|exact HK|apply K1; assumption]. }
    eapply fin_val; [exact O2|lia|exact V1|discriminate].
Qed.
Lemma c_if c b k : case (EIf c b k).
Proof.
  st0 eval_eq. sube IE O0 (r + 1) pos. destruct EV as [(NV & PS)|(w1 & E1 & x & st1 & fs1 & EQ1 & EV & O1 & V1 & B1 & K1)]; [apply PS|].
  apply (i_notjmp q d FO _ _ _ _ _ _ _ _ _ _ (r + 1) (size_all b)) in O1; [|at_|rk|lia|lia]. rewrite V1, <- truth_test in O1.
  destruct (truth x) eqn:TX.
  - eapply (body_k q d r _ _ _ _ _ _ _ _ _ b k cv); [exact FO|exact O1|lia|lia|lia|lia|exact LM|eassumption|eassumption|assumption|assumption| | |exact EV|lia].
    + intros v Q. rewrite B1 by lia. auto.
    + unfold T. rewrite V1, <- truth_test. exact TX.
  - eapply (post_seq q d FO _ _ _ _ _ _ _ _ _ _ (size_clauses k) false); [exact O1| |lia|discriminate].
    eapply (IK q d r _ tb tc _ _ _ _ cv); [split; try assumption; try lia; apply O1| | |eapply has_eq; [|instantiate (1 := pos + size c + 1 + size_all b); lia]| |].
    all: try assumption.
    + intros v Q. rewrite B1 by lia. auto.
    + rewrite V1, <- truth_test. exact TX.
    + replace (pos + size c + size_all b + 1) with (pos + size c + 1 + size_all b) by lia. eassumption.
Qed.

Lemma again q d r st0 pos w0 fs0 st w fs E e cv tb tc kp res : fok q d -> ok q r st0 pos w0 fs0 st pos w fs E ->
  0 <= r -> r + need e < b_stack (fr_f q) -> 0 <= pos -> pos + size e <= zlen (b_code (fr_f q)) -> lim tb tc ->
  has (b_code (fr_f q)) pos (gen (fr_f q) e r pos tb tc) -> gok (fr_f q) e -> (forall v, cv = Some v -> R q st r = v) ->
  eval n d (fr_self q) (fr_u q) w E cv e = Ok res -> kp = false -> post q r st0 pos w0 fs0 (size e) kp tb tc res.
Proof.
  intros FO O R0 ND P0 PE LM HS GK CV EV ->. eapply (tail_e q d r _ _ _ _ _ _ _ _ _ e); try eassumption; [reflexivity|discriminate].
Qed.
Lemma c_while c b : case (EWhile c b).
Proof.
  intros q d r pos tb tc st fs w E cv res PC CV HS GK EV. pose proof HS as HS0. pose proof GK as GK0. pose proof PC as PC0. revert PC CV HS GK EV. 
  match goal with |- ?A -> ?B -> ?C -> ?D -> ?E0 -> ?G => intros PC CV HS GK EV end. destruct PC as [FO R0 ND P0 PE LM IV FS].
  rewrite eval_eq in EV; cbv beta iota in EV. autorewrite with cgen csize cgok in HS, PE, GK. cbn [need] in ND. cbv zeta in HS. szs (fr_f q); nn.
  pose proof (ok_refl H tbl is_str STR0 q r st pos w fs E IV FS) as O0. pose proof (SM q d FO) as (SMc & SMv & SMl & SMu & SMp & SMs).
  set (en := pos + size c + 1 + size_all b + 1) in *. destruct GK as (GKc & GKb). 
  assert (WS : size (EWhile c b) = size c + 1 + size_all b + 1) by (autorewrite with csize; lia).
  apply has_app_inv in HS. destruct HS as (HSc & HS). apply has_app_inv in HS. destruct HS as (HSn & HS). apply has_app_inv in HS. destruct HS as (HSb & HSj). hsp.
  sube IE O0 (r + 1) pos. destruct EV as [(NV & PS)|(w1 & E1 & x & st1 & fs1 & EQ1 & EV & O1 & V1 & B1 & K1)]; [apply PS|].
  apply (i_notjmp q d FO _ _ _ _ _ _ _ _ _ _ (r + 1) (size_all b + 1)) in O1; [|at_|rk|lia|lia]. rewrite V1, <- truth_test in O1.
  destruct (truth x) eqn:TX.
  - destruct (evals n d (fr_self q) (fr_u q) w1 E1 cv b) as [rb| |] eqn:EB; try discriminate EV.
    assert (LM2 : lim en pos) by (unfold en; split; lia).
    eapply (sub_s n q d FO IS r _ _ _ _ _ _ _ _ _ r b cv en pos) in EB; [|exact O1|lia|lia|lia|lia|lia|exact LM2|exact HSb|exact GKb|].
    2:{ intros v Q. rewrite B1 by lia. auto. }
    assert (AG : forall st2 w2 fs2 E2 cv2, ok q r st pos w fs st2 pos w2 fs2 E2 -> (forall v, cv2 = Some v -> R q st2 r = v) ->
       eval n d (fr_self q) (fr_u q) w2 E2 cv2 (EWhile c b) = Ok res -> post q r st pos w fs (size (EWhile c b)) (keeps (EWhile c b)) tb tc res).
    { intros st2 w2 fs2 E2 cv2 O2 CV2 EV2. eapply again; try eassumption; try reflexivity; apply PC0. }
    destruct EB as [(NV & SP)|(w2 & E2 & ov & st2 & fs2 & -> & O2 & V2 & K2)].
    + destruct rb as ((w2, E2), o2). destruct o2 as [ov| | |v|v]; [exfalso; eapply NV; reflexivity| | | |].
      * injection EV as <-. destruct SP as (st2 & fs2 & O2). eapply fin_val; [exact O2|unfold en; lia|discriminate|discriminate].
      * destruct SP as (st2 & fs2 & O2). eapply (AG _ _ _ _ None O2); [discriminate|exact EV].
      * injection EV as <-. exact SP.
      * injection EV as <-. exact SP.
    + eapply (i_jmp q d FO _ _ _ _ _ _ _ _ _ _ (pos - en)) in O2; [|at_|unfold en; lia].
      eapply (ok_pos _ _ _ _ _ _ _ _ _ _ _ pos) in O2; [|unfold en; lia]. eapply (AG _ _ _ _ ov O2 V2 EV).
  - injection EV as <-. eapply fin_val; [exact O1|lia| |discriminate]. intros v Q. rewrite B1 by lia. auto.
Qed.
Lemma c_loop b : case (ELoop b).
Proof.
  intros q d r pos tb tc st fs w E cv res PC CV HS GK EV. pose proof HS as HS0. pose proof GK as GK0. pose proof PC as PC0.
  destruct PC as [FO R0 ND P0 PE LM IV FS].
  rewrite eval_eq in EV; cbv beta iota in EV. autorewrite with cgen csize cgok in HS, PE, GK. cbn [need] in ND. cbv zeta in HS. szs (fr_f q); nn.
  pose proof (ok_refl H tbl is_str STR0 q r st pos w fs E IV FS) as O1. pose proof (SM q d FO) as (SMc & SMv & SMl & SMu & SMp & SMs).
  set (en := pos + size_all b + 1) in *.
  assert (WS : size (ELoop b) = size_all b + 1) by (autorewrite with csize; lia).
  apply has_app_inv in HS. destruct HS as (HSb & HSj). hsp.
  destruct (evals n d (fr_self q) (fr_u q) w E cv b) as [rb| |] eqn:EB; try discriminate EV.
  assert (LM2 : lim en pos) by (unfold en; split; lia).
  eapply (sub_s n q d FO IS r _ _ _ _ _ _ _ _ _ r b cv en pos) in EB; [|exact O1|lia|lia|lia|lia|lia|exact LM2|exact HSb|exact GK|exact CV].
  assert (AG : forall st2 w2 fs2 E2 cv2, ok q r st pos w fs st2 pos w2 fs2 E2 -> (forall v, cv2 = Some v -> R q st2 r = v) ->
     eval n d (fr_self q) (fr_u q) w2 E2 cv2 (ELoop b) = Ok res -> post q r st pos w fs (size (ELoop b)) (keeps (ELoop b)) tb tc res).
  { intros st2 w2 fs2 E2 cv2 O2 CV2 EV2. eapply again; try eassumption; try reflexivity; apply PC0. }
  destruct EB as [(NV & SP)|(w2 & E2 & ov & st2 & fs2 & -> & O2 & V2 & K2)].
  - destruct rb as ((w2, E2), o2). destruct o2 as [ov| | |v|v]; [exfalso; eapply NV; reflexivity| | | |].
    + injection EV as <-. destruct SP as (st2 & fs2 & O2). eapply fin_val; [exact O2|unfold en; lia|discriminate|discriminate].
    + destruct SP as (st2 & fs2 & O2). eapply (AG _ _ _ _ None O2); [discriminate|exact EV].
    + injection EV as <-. exact SP.
    + injection EV as <-. exact SP.
  - eapply (i_jmp q d FO _ _ _ _ _ _ _ _ _ _ (pos - en)) in O2; [|at_|unfold en; lia].
    eapply (ok_pos _ _ _ _ _ _ _ _ _ _ _ pos) in O2; [|unfold en; lia]. eapply (AG _ _ _ _ ov O2 V2 EV).
Qed.
Lemma c_break : case EBreak.
Proof.
  st0 eval_eq. injection EV as <-. destruct LM as (LB & LC). eapply (i_jmp q d FO _ _ _ _ _ _ _ _ _ _ (tb - pos - 1)) in O0; [|at_|lia].
  exists st, fs. eapply ok_pos; [exact O0|lia].
Qed.
Lemma c_cont : case ECont.
Proof.
  st0 eval_eq. injection EV as <-. destruct LM as (LB & LC). eapply (i_jmp q d FO _ _ _ _ _ _ _ _ _ _ (tc - pos - 1)) in O0; [|at_|lia].
  exists st, fs. eapply ok_pos; [exact O0|lia].
Qed.
Lemma c_return e : case (EReturn e).
Proof.
  st0 eval_eq. sube IE O0 r pos; [|exact CV]. destruct EV as [(NV & PS)|(w1 & E1 & x & st1 & fs1 & EQ1 & EV & O1 & V1 & B1 & K1)]; [apply PS|].
  injection EV as <-. unfold post. cbn [snd]. exists st1, (pos + size e), fs1, r. destruct O1 as [SS1 IV1 FS1 SA1].
  split; [exact SS1|]. split; [apply opI; [at_|lia|lia]|]. split; [rk|]. split; [exact V1|]. split; [exact FS1|]. split; [apply IV1|].
  intros i I1. apply SA1; [lia|]. left. destruct (f_nonneg tbl M q d FO). lia.
Qed.
Lemma c_seq es : case (ESeq es).
Proof.
  intros q d r pos tb tc st fs w E cv res PC CV HS GK EV. rewrite eval_eq in EV; cbv beta iota in EV.
  autorewrite with cgen csize cgok in *. destruct PC. eapply (IS q d); try eassumption. split; assumption.
Qed.
Lemma c_lick m es : case (ELick m es).
Proof.
  st0 eval_eq. apply bind_inv in EV. destruct EV as (p & EA & EV).
  destruct (i_loadk q d FO _ _ _ _ _ _ _ _ _ _ r m O0 ltac:(at_) ltac:(assumption) ltac:(lia) ltac:(rk)) as (st1 & O1 & V1 & B1).
  assert (X := IA q d r (pos + 1) tb tc st1 fs w E [] es p).
  assert (Y : match p with
    | More w' E' vs' => exists st' fs' vs1, ok q (r + 1) st1 (pos + 1) w fs st' (pos + 1 + size_all es) w' fs' E'
        /\ vs' = [] ++ vs1 /\ zlen vs1 = elen es /\ forall i, 0 <= i < zlen vs1 -> R q st' (r + 1 + i) = znth vs1 i
    | Stop res => stop q (r + 1) st1 (pos + 1) w fs tb tc res end).
  { apply X; try assumption. split; try assumption; try lia; apply O1. }
  clear X. destruct p as [w2 E2 vs|rs].
  - destruct Y as (st2 & fs2 & vs1 & O2 & VE & ZV & AV). cbn [app] in VE. subst vs1.
    apply bind_inv in EV. destruct EV as ((w3, v3) & G & Q). injection Q as <-. cbn [fst snd].
    destruct (f_nonneg tbl M q d FO) as (N1 & N2 & N3). pose proof (f_reg q) as FR. pose proof (zlen_nonneg vs) as ZN.
    assert (B2 : R q st2 r = m). { rewrite <- V1. destruct O2 as [_ _ _ SA2]. apply SA2; [lia|right; lia]. }
    eapply (ok_trans H tbl is_str STR0 q) in O2; [|exact O1|lia].
    destruct (i_newlick q d FO _ _ _ _ _ _ _ _ _ _ r (elen es) v3 w3 O2 ltac:(at_) ltac:(lia) ltac:(lia) ltac:(rk) ltac:(rk)) as (st3 & O3 & V3 & B3).
    { rewrite B2. rewrite <- ZV in *. clear - G AV.
      assert (Q0 : (if 0 <? zlen vs then R q st2 (r + 1) else PN_NIL) = nth 0 vs PN_NIL).
      { destruct vs as [|x vs]; [reflexivity|]. rewrite zlen_cons in *. pose proof (zlen_nonneg vs). replace (0 <? 1 + zlen vs) with true by lia.
        specialize (AV 0 ltac:(lia)). rewrite Z.add_0_r in AV. rewrite AV. reflexivity. }
      assert (Q1 : (if 1 <? zlen vs then R q st2 (r + 2) else PN_NIL) = nth 1 vs PN_NIL).
      { destruct vs as [|x [|y vs]]; [reflexivity|reflexivity|]. rewrite !zlen_cons in *. pose proof (zlen_nonneg vs). replace (1 <? 1 + (1 + zlen vs)) with true by lia.
        specialize (AV 1 ltac:(lia)). replace (r + 1 + 1) with (r + 2) in AV by lia. rewrite AV. reflexivity. }
      rewrite Q0, Q1. exact G. }
    eapply fin_val; [exact O3|lia| |discriminate].
    intros v Q. injection Q as <-. exact V3.
  - injection EV as <-.
    assert (Z : stop q r st pos w fs tb tc rs) by (eapply (stop_ok H tbl is_str STR0 M q d FO); [exact O1|exact Y|lia]).
    destruct rs as ((w1, E1), o1). destruct o1; [contradiction Z| | | |]; exact Z.
Qed.
Lemma int_word v : word v = true -> PN_IS_INT v = true -> PN_NUM (PN_INT v) = v.
Proof. unfold word. intros A B. apply WordProofs.PN_NUM_INT; [lia|exact B]. Qed.
Lemma c_at up x k : case (EAt up x k).
Proof.
  st0 eval_eq. apply bind_inv in EV. destruct EV as ((w1, t) & G & EV). cbn [fst snd] in EV.
  assert (RK : r < b_stack (fr_f q)) by (destruct k; lia).
  assert (HX : exists st1, ok q r st pos w fs st1 (pos + 1) w1 fs E /\ set1 q st st1 r t).
  { destruct up; [eapply i_getupval|eapply i_getlocal]; try eassumption; try lia; try rk; at_. }
  destruct HX as (st1 & O1 & V1 & B1). destruct k as [i|y|v]; hsp.
  - apply bind_inv in EV. destruct EV as ((w2, v2) & G2 & Q). injection Q as <-. cbn [fst snd].
    destruct (i_gettuple_imm q d FO _ _ _ _ _ _ _ _ _ _ r i v2 w2 O1 ltac:(at_)) as (st2 & O2 & V2 & B2); [lia|rk|lia|rewrite V1; exact G2|].
    eapply fin_val; [exact O2|lia| |discriminate]. intros z Q. injection Q as <-. exact V2.
  - apply bind_inv in EV. destruct EV as ((w2, v2) & G2 & EV). cbn [fst snd] in EV. destruct (word v2 && PN_IS_INT v2) eqn:WI; [|discriminate].
    apply andb_prop in WI. destruct WI as (WW & WI). apply bind_inv in EV. destruct EV as ((w3, v3) & G3 & Q). injection Q as <-. cbn [fst snd].
    destruct (i_getlocal q d FO _ _ _ _ _ _ _ _ _ _ (r + 1) y _ _ O1 ltac:(at_) ltac:(assumption) ltac:(lia) ltac:(rk) G2) as (st2 & O2 & V2 & B2).
    destruct (i_gettuple_reg q d FO _ _ _ _ _ _ _ _ _ _ r (r + 1) v3 w3 O2 ltac:(at_)) as (st3 & O3 & V3 & B3); [lia|rk|rk|rewrite V2, int_word, B2, V1 by (assumption || lia); exact G3|].
    eapply fin_val; [exact O3|lia| |discriminate]. intros z Q. injection Q as <-. exact V3.
  - apply bind_inv in EV. destruct EV as ((w2, v2) & G2 & Q). injection Q as <-. cbn [fst snd].
    destruct (i_loadk q d FO _ _ _ _ _ _ _ _ _ _ (r + 1) v O1 ltac:(at_) ltac:(assumption) ltac:(lia) ltac:(rk)) as (st2 & O2 & V2 & B2).
    destruct (i_gettable q d FO _ _ _ _ _ _ _ _ _ _ r (r + 1) v2 w2 O2 ltac:(at_)) as (st3 & O3 & V3 & B3); [lia|rk|rk|rewrite V2, B2, V1 by lia; exact G2|].
    eapply fin_val; [exact O3|lia| |discriminate]. intros z Q. injection Q as <-. exact V3.
Qed.
Lemma c_fun l ps b : case (EFun l ps b).
Proof.
  intros q d r pos tb tc st fs w E cv res PC CV HS GK EV. rewrite eval_eq in EV; cbv beta iota in EV. destruct PC as [FO R0 ND P0 PE LM IV FS].
  autorewrite with cgen csize cgok in *. cbn [need] in ND. destruct GK as (G1 & G2 & G3). pose proof (SM q d FO) as (SMc & SMv & SMl & SMu & SMp & SMs).
  apply bind_inv in EV. destruct EV as (((w1, E1), rs) & SH & EV). apply bind_inv in EV. destruct EV as ((w2, v2) & G & Q). injection Q as <-. cbn [fst snd].
  destruct (proto_sim H tbl is_str STR0 M funs capt TO HT HC q d FO st pos w fs E r l w1 E1 rs w2 v2 HS IV FS ltac:(rk) ltac:(lia) G1 G2 G3 SH G) as (st1 & O1 & V1 & B1).
  eapply fin_val; [exact O1|reflexivity| |].
  - intros v Q. injection Q as <-. exact V1.
  - intros _. rewrite B1. auto.
Qed.
Lemma s_SE : SE (S n).
Proof.
  intros q d r pos tb tc st fs w E cv e res PC CV HS GK EV. revert q d r pos tb tc st fs w E cv res PC CV HS GK EV. change (case e).
  destruct e.
  - apply c_lit. - apply c_var. - apply c_up. - apply c_self. - apply c_bin. - apply c_not. - apply c_bitn. - apply c_and. - apply c_or.
  - apply c_set. - apply c_upset. - apply c_glob. - apply c_inc. - apply c_path. - apply c_pathof. - apply c_pathset. - apply c_list.
  - apply c_send. - apply c_send0. - apply c_selfsend. - apply c_selfsend0. - apply c_callvar. - apply c_callup. - apply c_callval.
  - apply c_if. - apply c_while. - apply c_loop. - apply c_break. - apply c_cont. - apply c_return. - apply c_seq. - apply c_lick. - apply c_at. - apply c_fun.
Qed.
Lemma s_SS : SS (S n).
Proof.
  intros q d r pos tb tc st fs w E cv es res PC CV HS GK EV. rewrite evals_eq in EV. destruct PC as [FO R0 ND P0 PE LM IV FS].
  pose proof (ok_refl H tbl is_str STR0 q r st pos w fs E IV FS) as O0.
  destruct es as [|e es]; cbn [need_all keeps_all] in *; autorewrite with cgen csize cgok in *.
  - injection EV as <-. eapply fin_val; [exact O0|lia|exact CV|auto].
  - szs (fr_f q); nn. destruct GK as (G1 & G2). hsp.
    assert (X : forall rs, eval n d (fr_self q) (fr_u q) w E cv e = Ok rs -> post q r st pos w fs (size e) (keeps e) tb tc rs).
    { intros rs EQ. eapply (IE q d); try eassumption. split; try assumption; lia. }
    apply witho_inv in EV. destruct EV as [(w1 & E1 & ov & EQ & EK)|(EQ & NV)].
    + destruct (X _ EQ) as (st1 & fs1 & O1 & V1 & K1). cbn [fst snd] in *.
      eapply (post_seq q d FO); [exact O1| |instantiate (1 := size_all es); lia|].
      * eapply (IS q d); [split|exact V1| |exact G2|exact EK]; try assumption; try lia; apply O1.
      * intros KK TT. apply andb_prop in KK. destruct KK. auto.
    + eapply (post_stop H tbl is_str STR0 M q d FO); [exact O0|apply X, EQ|exact NV|lia].
Qed.
Lemma s_SK : SK (S n).
Proof.
  intros q d r pos tb tc st fs w E cv k res PC CV TF HS GK EV. rewrite evalk_eq in EV. destruct PC as [FO R0 ND P0 PE LM IV FS].
  pose proof (ok_refl H tbl is_str STR0 q r st pos w fs E IV FS) as O0. pose proof (SM q d FO) as (SMc & SMv & SMl & SMu & SMp & SMs).
  destruct k as [|b|c b k]; cbn [need_clauses] in *; autorewrite with cgen csize cgok in *.
  - injection EV as <-. eapply fin_val; [exact O0|lia|exact CV|auto].
  - szs (fr_f q); nn. hsp. eapply (i_testjmp q d FO _ _ _ _ _ _ _ _ _ _ (r + 1) (size_all b)) in O0; [|at_|rk|lia|lia]. rewrite TF in O0.
    eapply (post_seq q d FO); [exact O0| |instantiate (1 := size_all b); lia|discriminate].
    eapply (IS q d); [split|exact CV| |exact GK|exact EV]; try assumption; try lia.
  - szs (fr_f q); nn. destruct GK as (G0 & G1 & G2 & G3). hsp.
    eapply (i_testjmp q d FO _ _ _ _ _ _ _ _ _ _ (r + 1) (size c + 1 + size_all b)) in O0; [|at_|rk|lia|lia]. rewrite TF in O0.
    sube IE O0 (r + 1) (pos + 1). destruct EV as [(NV & PS)|(w1 & E1 & x & st1 & fs1 & EQ1 & EV & O1 & V1 & B1 & K1)]; [apply PS|].
    apply (i_notjmp q d FO _ _ _ _ _ _ _ _ _ _ (r + 1) (size_all b)) in O1; [|at_|rk|lia|lia]. rewrite V1, <- truth_test in O1.
    destruct (truth x) eqn:TX.
    + eapply (body_k q d r _ _ _ _ _ _ _ _ _ b k cv); [exact FO|exact O1|lia|lia|lia|lia|exact LM|eassumption|eassumption|assumption|assumption| | |exact EV|lia].
      * intros v Q. rewrite B1 by lia. auto.
      * unfold T. rewrite V1, <- truth_test. exact TX.
    + eapply (ok_pos _ _ _ _ _ _ _ _ _ _ _ (pos + 1 + size c + 1 + size_all b)) in O1; [|lia].
      eapply (post_seq q d FO _ _ _ _ _ _ _ _ _ _ (size_clauses k) false); [exact O1| |lia|discriminate].
      eapply (IK q d r _ tb tc _ _ _ _ cv); [split; try assumption; try lia; apply O1| | |eassumption|assumption|exact EV].
      * intros v Q. rewrite B1 by lia. auto.
      * rewrite V1, <- truth_test. exact TX.
Qed.
Lemma s_SL : SL (S n).
Proof.
  intros q d r pos tb tc st fs w E t es res PC RT HS GK RO EV. rewrite evlist_eq in EV. destruct PC as [FO R0 ND P0 PE LM IV FS].
  pose proof (ok_refl H tbl is_str STR0 q r st pos w fs E IV FS) as O0.
  destruct es as [|e es]; cbn [need_items] in *; autorewrite with cgen csize cgok in *.
  - injection EV as <-. cbn [fst snd]. exists st, fs. split; [eapply ok_pos; [exact O0|lia]|]. split; [intros v Q; injection Q as <-; exact RT|]. auto.
  - szs (fr_f q); nn. destruct GK as (G1 & G2). hsp.
    sube IE O0 (r + 1) pos. destruct EV as [(NV & PS)|(w1 & E1 & x & st1 & fs1 & EQ1 & EV & O1 & V1 & B1 & K1)].
    + specialize (PS (size e + 1 + size_items es) false). unfold post in PS. destruct res as ((w1, E1), o1). cbn [fst snd] in *. destruct o1 as [ov| | |v|v]; try exact PS.
      exfalso. eapply NV. reflexivity.
    + apply bind_inv in EV. destruct EV as ((w2, t2) & G & EV). cbn [fst snd] in EV.
      destruct (i_prim2 q d FO O_SETTUPLE P_push _ _ _ _ _ _ _ _ _ _ r (r + 1) t2 w2 O1 ltac:(at_) ltac:(auto) ltac:(lia) ltac:(rk) ltac:(rk)) as (st3 & O3 & V3 & B3).
      { rewrite B1, V1 by lia. rewrite RT. exact G. }
      assert (X := IL q d r (pos + size e + 1) tb tc st3 fs1 w2 E1 t2 es res).
      destruct res as ((w4, E4), o4). cbn [fst snd] in *.
      assert (Y : match o4 with Val ov => exists st' fs', ok q r st3 (pos + size e + 1) w2 fs1 st' (pos + size e + 1 + size_items es) w4 fs' E4 /\ (forall v, ov = Some v -> R q st' r = v)
         /\ (truthy_last es = true -> (es = Nil -> T (R q st3 (r + 1))) -> T (R q st' (r + 1))) | _ => stop q r st3 (pos + size e + 1) w2 fs1 tb tc (w4, E4, o4) end).
      { apply X; try assumption. split; try assumption; try lia; apply O3. }
      destruct o4 as [ov| | |v|v].
      1:{ destruct Y as (st5 & fs5 & O5 & V5 & K5). exists st5, fs5. split; [|split; [exact V5|]].
          - eapply ok_pos; [eapply (ok_trans H tbl is_str STR0 q); [exact O3|exact O5|lia]|lia].
          - intros KK _. destruct es as [|e2 es2].
            + apply K5; [reflexivity|]. intros _. rewrite B3 by lia. rewrite V1. eapply truthy_val; [eapply fself, FO|exact KK|exact EQ1].
            + apply K5; [exact KK|discriminate]. }
      all: eapply (stop_ok H tbl is_str STR0 M q d FO); [exact O3|exact Y|lia].
Qed.
Lemma s_SA : SA (S n).
Proof.
  intros q d r pos tb tc st fs w E vs es p PC HS GK EV. rewrite evargs_eq in EV. destruct PC as [FO R0 ND P0 PE LM IV FS].
  pose proof (ok_refl H tbl is_str STR0 q (r + 1) st pos w fs E IV FS) as O0.
  destruct es as [|e es]; cbn [need_args] in *; autorewrite with cgen csize cgok in *.
  - injection EV as <-. exists st, fs, []. split; [eapply ok_pos; [exact O0|lia]|]. split; [rewrite app_nil_r; reflexivity|]. split; [reflexivity|]. intros i I1. unfold zlen in I1; cbn in I1; lia.
  - szs (fr_f q); nn. destruct GK as (G1 & G2). hsp.
    destruct (eval n d (fr_self q) (fr_u q) w E None e) as [rs| |] eqn:EQ; try discriminate EV.
    assert (X : post q (r + 1) st pos w fs (size e) (keeps e) tb tc rs).
    { eapply (IE q d); [split| | | |exact EQ]; try assumption; try lia. discriminate. }
    destruct rs as ((w1, E1), o1). destruct o1 as [[v|]| | |v|v]; try discriminate EV.
    1:{ destruct X as (st1 & fs1 & O1 & V1 & _). cbn [fst snd] in *. specialize (V1 _ eq_refl).
        assert (Y := IA q d (r + 1) (pos + size e) tb tc st1 fs1 w1 E1 (vs ++ [v]) es p).
        assert (Z : match p with
          | More w' E' vs' => exists st' fs' vs1, ok q (r + 1 + 1) st1 (pos + size e) w1 fs1 st' (pos + size e + size_all es) w' fs' E'
              /\ vs' = (vs ++ [v]) ++ vs1 /\ zlen vs1 = elen es /\ forall i, 0 <= i < zlen vs1 -> R q st' (r + 1 + 1 + i) = znth vs1 i
          | Stop res => stop q (r + 1 + 1) st1 (pos + size e) w1 fs1 tb tc res end).
        { apply Y; try assumption. split; try assumption; try lia; apply O1. }
        destruct p as [w' E' vs'|res].
        - destruct Z as (st' & fs' & vs1 & O2 & -> & Z2 & A2). exists st', fs', (v :: vs1). split; [|split; [|split]].
          + eapply ok_pos; [eapply (ok_trans H tbl is_str STR0 q); [exact O1|exact O2|lia]|lia].
          + rewrite <- app_assoc. reflexivity.
          + rewrite zlen_cons. cbn [elen]. lia.
          + intros i I1. rewrite zlen_cons in I1. destruct (Z.eq_dec i 0) as [->|D].
            * rewrite znth_cons0, Z.add_0_r. destruct O2 as [_ _ _ SA2]. destruct (f_nonneg tbl M q d FO) as (N1 & N2 & N3). pose proof (f_reg q).
              rewrite SA2; [exact V1|lia|right; lia].
            * rewrite znth_consS by lia. rewrite <- A2 by lia. f_equal. lia.
        - eapply (stop_ok H tbl is_str STR0 M q d FO); [exact O1|exact Z|lia]. }
    all: injection EV as <-; exact X.
Qed.
Lemma s_SC : SC (S n).
Proof.
  intros q d r pos tb tc st fs w E cl slf es res PC A B HS GK EV. rewrite evcall_eq in EV. destruct PC as [FO R0 ND P0 PE LM IV FS].
  apply bind_inv in EV. destruct EV as (p & EA & EV). apply has_app_inv in HS. destruct HS as (HS & OP). 
  rewrite (proj2 (proj2 (proj1 (proj2 (zlen_gen tbl (fr_f q))) es))) in OP. apply has_cons_inv in OP. destruct OP as (OP & _).
  szs (fr_f q); nn.
  assert (X := IA q d (r + 1) pos tb tc st fs w E [] es p ltac:(split; try assumption; lia) HS GK EA).
  destruct p as [w1 E1 vs|rs].
  - destruct X as (st1 & fs1 & vs1 & O1 & VE & ZV & AV). cbn [app] in VE. subst vs1. apply bind_inv in EV. destruct EV as ((w2, o2) & CL & Q). injection Q as <-. cbn [fst snd].
    destruct (f_nonneg tbl M q d FO) as (N1 & N2 & N3). pose proof (f_reg q) as FR. pose proof (zlen_nonneg vs) as ZN.
    cbn beta iota in *.
    assert (B1 : forall b, 0 <= b <= r + 1 -> R q st1 b = R q st b). { intros b I1. destruct O1 as [_ _ _ SA1]. apply SA1; [lia|right; lia]. }
    eapply (post_seq q d FO); [eapply (ok_le H tbl is_str STR0 q); [exact O1|lia]| |instantiate (1 := 1); lia|].
    + rewrite <- ZV in OP. eapply (ICO q d r (pos + size_all es) tb tc st1 fs1 w1 E1 cl slf vs); [exact FO|exact OP|exact R0|rk|apply O1|apply O1| | | |exact CL].
      * rewrite B1 by lia. exact A.
      * rewrite B1 by lia. exact B.
      * intros i I1. rewrite <- AV by lia. f_equal. lia.
    + intros _ TT. split; [reflexivity|]. rewrite B1 by lia. exact TT.
  - injection EV as <-. 
    assert (Y : stop q r st pos w fs tb tc rs) by (eapply (stop_ok H tbl is_str STR0 M q d FO); [eapply (ok_refl H tbl is_str STR0 q r); eassumption|exact X|lia]).
    destruct rs as ((w1, E1), o1). destruct o1; [contradiction Y| | | |]; exact Y.
Qed.
End Step.

Theorem sim : forall n, all n.
Proof.
  induction n as [|n IH].
  - repeat split; try (repeat intro; discriminate).
  - split; [apply s_SE, IH|]. split; [apply s_SS, IH|]. split; [apply s_SK, IH|]. split; [apply s_SL, IH|]. split; [apply s_SA, IH|]. split; [apply s_SC, IH|].
    apply CO_of. apply IH.
Qed.
End Sim.
