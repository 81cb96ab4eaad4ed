(** Specification for the collector theorems: what a well-formed heap is, what the
    program can reach in it, and what it means for a collection to preserve it. *)
From Verif Require Import Base Arr WordModel GcModel.

(** [chain h n w v]: the word w is the immediate v (n = 0), or refers through n
    forwarding stubs to the object at v *)
Inductive chain (h : heap) : nat -> Z -> Z -> Prop :=
| ch_imm v : PN_IS_PTR v = false -> chain h 0 v v
| ch_obj v o : PN_IS_PTR v = true -> h v = Some o -> is_fwd o = false -> chain h 0 v v
| ch_stub n v o r : PN_IS_PTR v = true -> h v = Some o -> is_fwd o = true ->
    chain h n (word o 1) r -> chain h (S n) v r.
Definition leads (h : heap) (w v : Z) : Prop := exists n, chain h n w v.

(** the words of an object that may hold references *)
Definition slots (c : cfg) (o : obj) : list Z := traced c o ++ saved_stack o.

(** ** Heaps a collection can start from *)
(** an object as the mutator leaves it: it has at least a header and a second word
    (potion_gc_alloc rounds up to sizeof(struct PNFwd)), its reference slots lie
    inside it, it is not marked as copied, and the size the collector computes for it
    is at least 16, a multiple of 8, and the size of its block *)
Record wfobj (c : cfg) (o : obj) : Prop := mkW {
  w_len : 2 <= zlen (o_words o);
  w_slots : forall i, In i (slots c o) -> 1 <= i < zlen (o_words o);
  w_notcopied : is_copied o = false;
  w_size : is_fwd o = false -> 16 <= type_size c o <= o_size o /\ (type_size c o) mod 8 = 0 /\
             kept o (type_size c o) = zlen (o_words o)
}.
(** the total size of some objects *)
Definition tsz (c : cfg) (h : heap) (a : Z) : Z := match h a with Some o => type_size c o | None => 0 end.
Fixpoint szs (c : cfg) (h : heap) (l : list Z) : Z := match l with [] => 0 | a :: l => tsz c h a + szs c h l end.
(** the content of a field: an immediate, or a reference to an object through fewer
    stubs than potion_fwd is willing to follow (in C it follows any number) *)
Definition valid (c : cfg) (h : heap) (w : Z) : Prop := exists n r, (n < c_depth c)%nat /\ chain h n w r.
(** a word of the machine stack or of a saved stack: if it lies in a heap region it is
    a reference, or the bytes it points to do not look like an object header *)
Definition good_root (c : cfg) (h : heap) (w : Z) : Prop := c_region c w = true ->
  (PN_IS_PTR w = true /\ valid c h w) \/ (h w = None /\ c_junk c w = false).
Record ready (c : cfg) (h : heap) (start limit : Z) : Prop := mkReady {
  g_obj : forall a o, h a = Some o -> PN_IS_PTR a = true /\ c_region c a = true /\ wfobj c o;
  g_val : forall a o i, h a = Some o -> In i (traced c o) -> valid c h (word o i);
  g_sav : forall a o i, h a = Some o -> In i (saved_stack o) -> good_root c h (word o i);
  (* a stub refers to an object; a stub in the collected space to the collected space *)
  g_stub : forall a o, h a = Some o -> is_fwd o = true ->
             PN_IS_PTR (word o 1) = true /\ (c_from c a = true -> c_from c (word o 1) = true);
  g_types : 24 <= c_ntypes c;
  g_depth : (0 < c_depth c)%nat;
  (* the space objects are copied to is free and outside the collected space *)
  g_to : forall b, start <= b < limit -> h b = None /\ c_from c b = false;
  g_al : start mod 8 = 0 /\ 8 <= start /\ limit <= 2 ^ 64;
  (* and has room for all collected objects *)
  g_fit : exists L, NoDup L /\ (forall a o, c_from c a = true -> h a = Some o -> is_fwd o = false -> In a L) /\
            start + szs c h L <= limit
}.
Arguments g_obj {c h start limit}. Arguments g_val {c h start limit}. Arguments g_sav {c h start limit}.
Arguments g_stub {c h start limit}. Arguments g_types {c h start limit}. Arguments g_depth {c h start limit}.
Arguments g_to {c h start limit}. Arguments g_al {c h start limit}. Arguments g_fit {c h start limit}.

(** an object outside the collected space *)
Definition old_obj (c : cfg) (h : heap) (a : Z) (o : obj) : Prop := c_from c a = false /\ h a = Some o.
(** an object a collection need not look at: it has no direct references into the
    collected space and is no continuation *)
Definition unaffected (c : cfg) (h : heap) (a : Z) : Prop :=
  forall o, h a = Some o -> o_vt o <> PN_TCONT /\
    forall i, In i (slots c o) -> h (word o i) <> None -> c_from c (word o i) = false.
(** memory from p to hi is a sequence of adjacent objects *)
Inductive walk (c : cfg) (h : heap) : Z -> Z -> list Z -> Prop :=
| wk_end p hi : hi <= p -> walk c h p hi []
| wk_obj p hi o l : p < hi -> old_obj c h p o -> walk c h (p + type_size c o) hi l -> walk c h p hi (p :: l).

(** ** What must survive *)
(** the objects the program can still reach: from the words of the stack, from the
    objects outside the collected space (which are all kept), and from fields *)
Inductive live (c : cfg) (h : heap) (stack : list Z) : Z -> Prop :=
| lv_stack w v : In w stack -> leads h w v -> PN_IS_PTR v = true -> live c h stack v
| lv_old a o : c_from c a = false -> h a = Some o -> is_fwd o = false -> live c h stack a
| lv_field a o i v : live c h stack a -> h a = Some o -> In i (slots c o) -> leads h (word o i) v ->
    PN_IS_PTR v = true -> live c h stack v.
(** a word before and after: what is no reference is untouched, a reference to an
    object becomes a reference to its image, and a direct one becomes a direct one *)
Definition word_kept (h h' : heap) (img : Z -> Z) (w w' : Z) : Prop :=
  (h w = None -> w' = w) /\ (forall v, h w <> None -> leads h w v -> leads h' w' (img v)) /\
  (forall o, h w = Some o -> is_fwd o = false -> w' = img w).
(** [img] maps the objects reachable before to the objects after: distinct ones to
    distinct ones (sharing and cycles are kept), each to an object with the same
    header, size and data words, and with references to the images in the same places *)
Record preserved (c : cfg) (h h' : heap) (stack stack' : list Z) (img : Z -> Z) : Prop := mkP {
  p_old : forall a, c_from c a = false -> img a = a;
  p_new : forall a, live c h stack a -> c_from c (img a) = false;
  p_inj : forall a b, live c h stack a -> live c h stack b -> img a = img b -> a = b;
  p_obj : forall a o, live c h stack a -> h a = Some o -> exists o', h' (img a) = Some o' /\
            zlen (o_words o') = zlen (o_words o) /\ type_size c o' = type_size c o /\
            (forall i, 0 <= i -> ~ In i (slots c o) -> word o' i = word o i) /\
            (forall i, In i (slots c o) -> word_kept h h' img (word o i) (word o' i));
  p_stack : Forall2 (word_kept h h' img) stack stack'
}.
(** every object is well formed and no reference field dangles *)
Definition whole (c : cfg) (h : heap) : Prop :=
  forall a o, h a = Some o -> PN_IS_PTR a = true /\ wfobj c o /\ forall i, In i (traced c o) -> valid c h (word o i).
(** the continuations that survive are on the new store list, and only objects are *)
Definition keep_ok (h' : heap) (keep : list Z) : Prop :=
  (forall a o, h' a = Some o -> o_vt o = PN_TCONT -> In a keep) /\
  (forall v, In v keep -> h' v <> None).
