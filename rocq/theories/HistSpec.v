(** Specification for the history theorems (C39, C42): what the mutator and the
    collector may do to the heap and the store list, in any order. *)
From Verif Require Import Base Arr WordModel GcModel GcSpec AllocModel.

(** a heap between two steps of the program *)
Record sane (c : cfg) (h : heap) : Prop := mkSane {
  sa_obj : forall a o, h a = Some o -> PN_IS_PTR a = true /\ c_region c a = true /\ wfobj c o;
  sa_val : forall a o i, h a = Some o -> In i (traced c o) -> valid c h (word o i);
  sa_sav : forall a o i, h a = Some o -> In i (saved_stack o) -> good_root c h (word o i);
  sa_stub : forall a o, h a = Some o -> is_fwd o = true ->
              PN_IS_PTR (word o 1) = true /\ (c_from c a = true -> c_from c (word o 1) = true)
}.
(** the contents an object may get: well formed, no stub, references to objects *)
Record content (c : cfg) (h : heap) (o : obj) : Prop := mkContent {
  ct_wf : wfobj c o;
  ct_fwd : is_fwd o = false;
  ct_val : forall i, In i (traced c o) -> valid c h (word o i);
  ct_sav : forall i, In i (saved_stack o) -> good_root c h (word o i)
}.
(** the next nursery of a program with the types of c: it holds no object yet *)
Record next_cfg (c c' : cfg) (h : heap) : Prop := mkNext {
  nx_iv : c_ivlen c' = c_ivlen c; nx_ty : c_ntypes c' = c_ntypes c; nx_dp : c_depth c' = c_depth c;
  nx_reg : forall a o, h a = Some o -> c_region c' a = true;
  nx_new : forall a o, h a = Some o -> c_from c' a = false;
  (* words of saved stacks that are no references do not look like objects *)
  nx_sav : forall a o i, h a = Some o -> In i (saved_stack o) -> good_root c' h (word o i)
}.
(** free space for the survivors *)
Record to_space (c : cfg) (h : heap) (start limit : Z) : Prop := mkTo {
  ts_to : forall b, start <= b < limit -> h b = None /\ c_from c b = false;
  ts_al : start mod 8 = 0 /\ 8 <= start /\ limit <= 2 ^ 64;
  ts_fit : exists L, NoDup L /\ (forall a o, c_from c a = true -> h a = Some o -> is_fwd o = false -> In a L) /\
             start + szs c h L <= limit
}.
(** the roots of a collection *)
Record roots (c : cfg) (h : heap) (P : Z) (stack : list Z) (strings : list (option Z)) : Prop := mkRoots {
  rt_P : exists o, old_obj c h P o /\ o_vt o = PN_TSTATE;
  rt_stack : forall w, In w stack -> good_root c h w;
  rt_strings : forall v, In (Some v) strings -> c_from c v = true -> h v <> None
}.
(** histories: the heap and the store list after any sequence of
    - allocations of initialised objects in the nursery,
    - stores into an object, announced with gc_update on that object,
    - stores into an object of the nursery, announced or not,
    - growths of an object (potion_gc_realloc): the object becomes a stub of its
      copy in the nursery, and the stub is announced,
    - minor and major collections *)
Inductive history : cfg -> heap -> list Z -> Prop :=
| hi_start c h : sane c h -> 24 <= c_ntypes c -> (0 < c_depth c)%nat ->
    (forall a o, h a = Some o -> c_from c a = false /\ o_vt o <> PN_TCONT) -> history c h []
| hi_alloc c h store a o : history c h store -> h a = None -> PN_IS_PTR a = true -> c_from c a = true -> c_region c a = true ->
    content c h o -> history c (hset h a o) store
| hi_write c h store a o o' : history c h store -> h a = Some o -> is_fwd o = false -> content c h o' ->
    history c (hset h a o') (gc_update (c_from c) store a)
| hi_write_young c h store a o o' : history c h store -> h a = Some o -> is_fwd o = false -> content c h o' -> c_from c a = true ->
    history c (hset h a o') store
| hi_grow c h store a o dst n stub : history c h store -> h a = Some o -> is_fwd o = false -> content c h n ->
    h dst = None -> PN_IS_PTR dst = true -> c_from c dst = true -> c_region c dst = true ->
    is_fwd stub = true -> word stub 1 = dst -> wfobj c stub ->
    (* no reference goes through so many stubs that the fuel of potion_fwd ends *)
    (forall w k r, chain h k w r -> (k < c_depth c)%nat -> (S k < c_depth c)%nat) ->
    history c (hset (hset h dst n) a stub) (gc_update (c_from c) store a)
| hi_minor c h store start limit P stack strings fuel r c' : history c h store ->
    to_space c h start limit -> roots c h P stack strings ->
    minor c fuel P h start stack store strings = Ok r -> next_cfg c c' (r_heap r) ->
    history c' (r_heap r) (r_keep r)
| hi_major c h store cM start limit P stack (wk : bool) lo hi prot strings fuel r c' : history c h store ->
    (* cM: the old generation is collected as well *)
    c_ivlen cM = c_ivlen c -> c_ntypes cM = c_ntypes c -> c_depth cM = c_depth c -> c_region cM = c_region c -> c_junk cM = c_junk c ->
    (forall a o, h a = Some o -> is_fwd o = true -> c_from cM a = true -> c_from cM (word o 1) = true) ->
    to_space cM h start limit -> roots cM h P stack strings ->
    (if wk then walk cM h lo hi prot else prot = []) -> (forall a o, old_obj cM h a o -> In a prot \/ unaffected cM h a) ->
    major cM fuel P h start stack wk lo hi strings = Ok r -> next_cfg c c' (r_heap r) ->
    history c' (r_heap r) (r_keep r).
