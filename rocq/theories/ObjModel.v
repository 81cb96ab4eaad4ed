(** Model of classes, methods, instances and their fields, core/objmodel.c,
    and of the field-lookup function the x86 back end generates
    (core/vm-x86.c 1123-1154).

    The heap is a list of objects handed out at increasing addresses; vtables,
    closures and instances are never reallocated, so no forwarding occurs here
    (forwarding and moving collections: GcModel.v).  A vtable owns its method
    table and its list of field names (the code keeps pointers to them; sharing
    one ivars tuple between two classes is not modelled). *)
From Verif Require Import Base Arr GArr WordModel TupleModel KhashModel TableModel.

(** C function behind a closure, as far as dispatch distinguishes them *)
Inductive cfun := F_lookup | F_getter | F_proto | F_no_call | F_other (n : Z).
(** core/potion.h 381-390 struct PNClosure (arity and minargs: SigModel.v) *)
Record closure := mkCl { c_fn : cfun; c_sig : Z; c_data : list Z; c_name : Z }.
(** core/table.h 24-37 struct PNVtable; [v_ivars] is None for PN_NIL and
    [v_ivfunc] is None for NULL; mcache is compiled out (JIT_MCACHE), call and
    callset are not modelled *)
Record vtable := mkVt { v_parent : Z; v_type : Z; v_name : Z; v_ivlen : Z; v_ivars : option tuple;
  v_methods : table; v_meta : Z; v_ctor : Z; v_ivfunc : option (list Z) }.
Inductive obj :=
| OVt (v : vtable)
| OCl (c : closure)
| OProto (sig name : Z)
| OObj (t : Z) (fields : list Z)   (* instance of a class: core/potion.h 304-307 *)
| OOther (t : Z).                  (* string, tuple, ...: only the type matters here *)

Definition otype (o : obj) : Z :=
  match o with OVt _ => PN_TVTABLE | OCl _ => PN_TCLOSURE | OProto _ _ => PN_TPROTO | OObj t _ => t | OOther t => t end.

(** the interpreter state: heap, P->vts (its length is PN_FLEX_SIZE; growth of
    the flex array is AsmModel.flex_needs), P->lobby *)
Record world := mkW { w_heap : list obj; w_vts : list Z; w_lobby : Z }.
Definition addr (n : nat) : Z := 65536 + 16 * Z.of_nat n.
Definition slot (a : Z) : option nat :=
  if (65536 <=? a) && ((a - 65536) mod 16 =? 0) then Some (Z.to_nat ((a - 65536) / 16)) else None.
Definition hget (w : world) (a : Z) : option obj :=
  match slot a with Some n => nth_error (w_heap w) n | None => None end.
Definition hset (w : world) (a : Z) (o : obj) : world :=
  match slot a with
  | Some n => mkW (firstn n (w_heap w) ++ o :: skipn (S n) (w_heap w)) (w_vts w) (w_lobby w)
  | None => w
  end.
Definition alloc (w : world) (o : obj) : world * Z :=
  (mkW (w_heap w ++ [o]) (w_vts w) (w_lobby w), addr (length (w_heap w))).
Definition with_vts (w : world) (l : list Z) : world := mkW (w_heap w) l (w_lobby w).

Definition get_vt (w : world) (a : Z) : res vtable :=
  match hget w a with Some (OVt v) => Ok v | _ => UB end.
(** potion.h 141-146 PN_TYPE_ID, PN_VTABLE, PN_TYPECHECK *)
Definition PN_VTABLE (w : world) (t : Z) : res Z := rd (w_vts w) (t - PN_TNIL).
Definition set_VTABLE (w : world) (t a : Z) : res world :=
  do l <- wr (w_vts w) (t - PN_TNIL) a; Ok (with_vts w l).
Definition PN_TYPECHECK (w : world) (t : Z) : bool := (PN_TNIL <=? t) && (t - PN_TNIL <? zlen (w_vts w)).
(** potion.h 532-546 potion_type, without forwarding *)
Definition PN_TYPE (w : world) (v : Z) : res Z :=
  if PN_IS_INT v then Ok PN_TNUMBER
  else if PN_IS_BOOL v then Ok PN_TBOOLEAN
  else if PN_IS_NIL v then Ok PN_TNIL
  else match hget w v with Some o => Ok (otype o) | None => UB end.
(** potion.h 183-185 PN_IS_CLOSURE, PN_IS_PROTO *)
Definition ptr_type_is (w : world) (v t : Z) : res bool :=
  if PN_IS_PTR v then match hget w v with Some o => Ok (otype o =? t) | None => UB end else Ok false.
(** potion.h 187 PN_IS_METACLASS *)
Definition IS_METACLASS (v : vtable) : bool := v_meta v =? PN_NIL.

(** objmodel.c 17-34 potion_closure_new; PN_FUNC(f, 0) has no signature *)
Definition closure_new (w : world) (f : cfun) (sig : Z) (extra : nat) : world * Z :=
  alloc w (OCl (mkCl f sig (repeat PN_NIL extra) PN_NIL)).

(** objmodel.c 193-205 potion_add_metaclass on the vtable at address [a] *)
Definition add_metaclass (w : world) (a : Z) : res world :=
  do v <- get_vt w a;
  let t := zlen (w_vts w) + PN_TNIL in
  let '(w, m) := alloc w (OVt (mkVt 0 0 0 0 None table_empty 0 0 None)) in
  let w := hset w a (OVt (mkVt (v_parent v) (v_type v) (v_name v) (v_ivlen v) (v_ivars v)
                               (v_methods v) m (v_ctor v) (v_ivfunc v))) in
  let w := with_vts w (w_vts w ++ [0]) in
  let '(w, c) := closure_new w F_no_call PN_NIL 0 in
  let w := hset w m (OVt (mkVt PN_TVTABLE t PN_NIL 0 None table_empty PN_NIL c None)) in
  set_VTABLE w t m.
(** objmodel.c 207-217 potion_type_new *)
Definition type_new (w : world) (t self : Z) : res (world * Z) :=
  do p <- (if self =? PN_NIL then Ok 0 else do s <- get_vt w self; Ok (v_type s));
  let '(w, a) := alloc w (OVt (mkVt 0 0 0 0 None table_empty 0 0 None)) in
  let '(w, c) := closure_new w F_no_call PN_NIL 0 in
  let w := hset w a (OVt (mkVt p t PN_NIL 0 None table_empty PN_NIL c None)) in
  do w <- set_VTABLE w t a;
  do w <- add_metaclass w a;
  Ok (w, a).
(** internal.c 137-141 potion_delegated: PN_FLEX_NEEDS makes room but, unlike
    potion_class, the size is not incremented, so the slot exists physically
    while PN_FLEX_SIZE still is the new type's number *)
Definition delegated (w : world) (self : Z) : res (world * Z) :=
  let t := zlen (w_vts w) + PN_TNIL in
  do p <- (if self =? PN_NIL then Ok 0 else do s <- get_vt w self; Ok (v_type s));
  let '(w, a) := alloc w (OVt (mkVt 0 0 0 0 None table_empty 0 0 None)) in
  let '(w, c) := closure_new w F_no_call PN_NIL 0 in
  let w := hset w a (OVt (mkVt p t PN_NIL 0 None table_empty PN_NIL c None)) in
  (* PN_VTABLE(t) = vt writes one slot past the size; add_metaclass then uses
     the same slot for the metaclass *)
  do w <- add_metaclass w a;
  Ok (w, a).

(** ** Fields *)
(** little-endian bytes *)
Fixpoint le_bytes (n : nat) (x : Z) : list Z :=
  match n with O => [] | S n' => x mod 256 :: le_bytes n' (x / 256) end.
Fixpoint le_val (l : list Z) : Z := match l with [] => 0 | b :: r => b + 256 * le_val r end.
(** core/vm-x86.c 1123-1154 potion_x86_ivars, 64-bit build: for field i with
    identity number u:  cmp $u,%edi; jnz +6; mov $i,%eax; retq;
    at the end:         mov $-1,%rax; retq
    (asm.c: bytes are appended, PropAsm.C49) *)
Definition ivars_entry (u i : Z) : list Z :=
  [129; 255] ++ le_bytes 4 (u32 u) ++ [117; 6] ++ [184] ++ le_bytes 4 (u32 i) ++ [195].
Fixpoint ivars_entries (us : list Z) (i : Z) : list Z :=
  match us with [] => [] | u :: r => ivars_entry u i ++ ivars_entries r (i + 1) end.
Definition x86_ivars (us : list Z) : list Z :=
  ivars_entries us 0 ++ [72; 184] ++ le_bytes 8 (u64 (-1)) ++ [195].

(** The six instruction forms used above, as the processor executes them (Intel
    SDM: 81 /7 id with ModRM FF = CMP EDI,imm32; 75 cb = JNZ rel8; B8 id = MOV
    EAX,imm32, zero-extended; 48 B8 io = MOV RAX,imm64; C3 = RET).  [edi] is
    the argument, the result is RAX. *)
Definition take_n (n : nat) (l : list Z) : option (list Z * list Z) :=
  if (length l <? n)%nat then None else Some (firstn n l, skipn n l).
Fixpoint x86_run (fuel : nat) (code : list Z) (pc : Z) (edi rax : Z) (zf : bool) : res Z :=
  match fuel with
  | O => NoFuel
  | S f =>
    if pc <? 0 then UB else
    match skipn (Z.to_nat pc) code with
    | 129 :: 255 :: r =>
        match take_n 4 r with
        | Some (imm, _) => x86_run f code (pc + 6) edi rax (u32 edi =? le_val imm)
        | None => UB
        end
    | 117 :: d :: _ =>
        let rel := if d <? 128 then d else d - 256 in
        x86_run f code (if zf then pc + 2 else pc + 2 + rel) edi rax zf
    | 184 :: r =>
        match take_n 4 r with
        | Some (imm, _) => x86_run f code (pc + 5) edi (le_val imm) zf
        | None => UB
        end
    | 72 :: 184 :: r =>
        match take_n 8 r with
        | Some (imm, _) => x86_run f code (pc + 10) edi (le_val imm) zf
        | None => UB
        end
    | 195 :: _ => Ok rax
    | _ => UB
    end
  end.

Section Obj.
(** identity number (PN_UNIQ) of each object; junk in grown tables *)
Variable uniq : Z -> Z.
Variable junk : Z -> Z * Z.
(** junk in fresh tuples *)
Variable e : env.
(** is the code generator built in (POTION_JIT_TARGET)? *)
Variable jit : bool.
(** the interned string "lookup" *)
Variable PN_lookup : Z.

(** objmodel.c 290-303 potion_ivars *)
Definition ivars_set (w : world) (self : Z) (iv : tuple) : res world :=
  do v <- get_vt w self;
  let f := if jit then Some (x86_ivars (map (PN_UNIQ uniq) (ztake (t_len iv) (t_mem iv)))) else v_ivfunc v in
  Ok (hset w self (OVt (mkVt (v_parent v) (v_type v) (v_name v) (t_len iv) (Some iv)
                             (v_methods v) (v_meta v) (v_ctor v) f))).
(** the loop at objmodel.c 261: PN_PUT every field of the parent *)
Definition inherit (pv iv : tuple) : res tuple :=
  do r <- TUPLE_EACH (R := Empty_set) pv (fun _ x t => do (t, _) <- tuple_push_unless e t x; Ok (inl t)) iv;
  match r with inl t => Ok t | inr x => match x with end end.
(** objmodel.c 252-272 potion_class; [ivars] is None when no tuple is passed *)
Definition class_new (w : world) (cl self : Z) (ivars : option tuple) : res (world * Z) :=
  do parent <- (if (self =? PN_NIL) || (self =? w_lobby w) then PN_VTABLE w PN_TOBJECT else Ok self);
  do p <- get_vt w parent;
  let t := zlen (w_vts w) + PN_TNIL in
  let w := with_vts w (w_vts w ++ [0]) in
  do (w, self) <- type_new w t parent;
  do ivars <- (match v_ivars p with
               | Some pv => do iv <- (match ivars with Some iv => Ok iv | None => tuple_empty e end);
                            do iv <- inherit pv iv; Ok (Some iv)
               | None => Ok ivars
               end);
  do w <- (match ivars with Some iv => ivars_set w self iv | None => Ok w end);
  do isc <- ptr_type_is w cl PN_TCLOSURE;
  do p <- get_vt w parent;
  let cl := if isc then cl else v_ctor p in
  do v <- get_vt w self;
  let w := hset w self (OVt (mkVt (v_parent v) (v_type v) (v_name v) (v_ivlen v) (v_ivars v)
                                  (v_methods v) (v_meta v) cl (v_ivfunc v))) in
  Ok (w, self).

(** objmodel.c 305-320 potion_obj_find_ivar; the function pointer is called
    with PN_UNIQ(ivar) and its result converted to long.  Without generated
    code the tagged result of the binary search is used as it is. *)
Definition find_ivar (fuel : nat) (w : world) (self ivar : Z) : res Z :=
  do t <- PN_TYPE w self;
  do a <- PN_VTABLE w t;
  do v <- get_vt w a;
  match v_ivfunc v with
  | Some code => do r <- x86_run fuel code 0 (PN_UNIQ uniq ivar) 0 false; Ok (s64 r)
  | None =>
    if t >? PN_TUSER then
      match v_ivars v with
      | Some iv => do f <- tuple_bsearch (PN_UNIQ uniq) iv ivar fuel;
                   Ok (if f =? PN_FALSE then -1 else s64 f)
      | None => Ok (-1)
      end
    else Ok (-1)
  end.
(** objmodel.c 322-327 potion_obj_get *)
Definition obj_get (fuel : nat) (w : world) (self ivar : Z) : res Z :=
  do i <- find_ivar fuel w self ivar;
  if i >=? 0 then match hget w self with Some (OObj _ f) => rd f i | _ => UB end else Ok PN_NIL.
(** objmodel.c 329-336 potion_obj_set (PN_TOUCH: GcModel) *)
Definition obj_set (fuel : nat) (w : world) (self ivar value : Z) : res (world * Z) :=
  do i <- find_ivar fuel w self ivar;
  if i >=? 0 then
    match hget w self with
    | Some (OObj t f) => do f <- wr f i value; Ok (hset w self (OObj t f), value)
    | _ => UB
    end
  else Ok (w, value).
(** objmodel.c 530-538 potion_object_new: ivlen words of fields (the code asks
    for the size of a vtable on top, which is lost at the next collection);
    [fj] is what the memory holds *)
Definition object_new (w : world) (self : Z) (fj : nat -> Z) : res (world * Z) :=
  do v <- get_vt w self;
  if IS_METACLASS v then Ok (w, PN_NIL)
  else if v_type v =? PN_TVTABLE then Ok (w, PN_NIL)
  else Ok (alloc w (OObj (v_type v) (map fj (seq 0 (Z.to_nat (v_ivlen v)))))).

(** ** Methods *)
Definition set_methods (w : world) (a : Z) (m : table) : res world :=
  do v <- get_vt w a;
  Ok (hset w a (OVt (mkVt (v_parent v) (v_type v) (v_name v) (v_ivlen v) (v_ivars v) m
                          (v_meta v) (v_ctor v) (v_ivfunc v)))).
Definition set_clname (w : world) (a key : Z) : res world :=
  match hget w a with
  | Some (OCl c) => Ok (hset w a (OCl (mkCl (c_fn c) (c_sig c) (c_data c) key)))
  | _ => UB
  end.
(** objmodel.c 346-388 potion_def_method; None: the error object returned when
    self is not a class *)
Definition def_method (w : world) (self key method : Z) : res (world * option Z) :=
  do ts <- PN_TYPE w self;
  if negb (ts =? PN_TVTABLE) then Ok (w, None) else
  do v <- get_vt w self;
  do (m, k, _) <- kh_put Z.eqb (pn_hash uniq) junk (v_methods v) key;
  do w <- set_methods w self m;
  do isc <- ptr_type_is w method PN_TCLOSURE;
  do (w, method) <-
    (if negb isc then
       do isp <- ptr_type_is w method PN_TPROTO;
       do (w, cl) <-
         (if isp then
            match hget w method with
            | Some (OProto sig _) =>
                let '(w, cl) := closure_new w F_proto sig 1 in
                Ok (hset w method (OProto sig key), cl)
            | _ => UB
            end
          else Ok (closure_new w F_getter PN_NIL 1));
       match hget w cl with
       | Some (OCl c) => do d <- wr (c_data c) 0 method;
                         Ok (hset w cl (OCl (mkCl (c_fn c) (c_sig c) d key)), cl)
       | _ => UB
       end
     else do w <- set_clname w method key; Ok (w, method));
  do v <- get_vt w self;
  do m <- kh_set_val (v_methods v) k method;
  do w <- set_methods w self m;
  Ok (w, Some method).
(** objmodel.c 391-400 potion_lookup *)
Definition lookup (w : world) (self key : Z) : res Z :=
  do v <- get_vt w self;
  table_at uniq (v_methods v) key.
(** objmodel.c 403-421 potion_bind, the part before the loop *)
Definition bind_start (w : world) (rcv t : Z) : res Z :=
  if t =? PN_TVTABLE then
    do v <- get_vt w rcv;
    if negb (IS_METACLASS v) then Ok (v_meta v) else PN_VTABLE w t
  else PN_VTABLE w t.
(** the loop; [look vt] is how one class is asked *)
Fixpoint bind_loop (fuel : nat) (look : Z -> res Z) (w : world) (vt : Z) : res Z :=
  match fuel with
  | O => NoFuel
  | S f =>
    do closure <- look vt;
    do v <- get_vt w vt;
    if negb (closure =? PN_NIL) || (v_parent v =? 0) then Ok closure
    else do vt <- PN_VTABLE w (v_parent v); bind_loop f look w vt
  end.
(** potion_bind(P, vt, PN_lookup) with vt a vtable: asks directly *)
Definition bind_lookup (fuel : nat) (w : world) (vt : Z) : res Z :=
  if negb (PN_TYPECHECK w PN_TVTABLE) then Ok PN_NIL else
  do start <- bind_start w vt PN_TVTABLE;
  bind_loop fuel (fun vt => lookup w vt PN_lookup) w start.
(** potion_send(vt, PN_lookup, msg), potion.h 781-787.  A closure other than
    the built-in one would run user code: outside the model. *)
Definition send_lookup (fuel : nat) (w : world) (vt msg : Z) : res Z :=
  do c <- bind_lookup fuel w vt;
  do isc <- ptr_type_is w c PN_TCLOSURE;
  if isc then
    match hget w c with
    | Some (OCl cl) => match c_fn cl with F_lookup => lookup w vt msg | _ => UB end
    | _ => UB
    end
  else Ok c.
Definition bind_msg (fuel : nat) (w : world) (rcv msg : Z) : res Z :=
  do t <- PN_TYPE w rcv;
  if negb (PN_TYPECHECK w t) then Ok PN_NIL else
  do start <- bind_start w rcv t;
  bind_loop fuel (fun vt => if (msg =? PN_lookup) && (t =? PN_TVTABLE)
                            then lookup w vt msg else send_lookup fuel w vt msg) w start.
(** objmodel.c 423-428 potion_message, for closures made by potion_def_method
    out of a plain value (objmodel.c 342-344 potion_getter_method); None: a
    method with other code is called *)
Definition message (fuel : nat) (w : world) (rcv msg : Z) : res (option Z) :=
  do c <- bind_msg fuel w rcv msg;
  do isc <- ptr_type_is w c PN_TCLOSURE;
  if isc then
    match hget w c with
    | Some (OCl cl) =>
        if c_sig cl =? PN_NIL then
          match c_fn cl with
          | F_getter => do d <- rd (c_data cl) 0; Ok (Some d)
          | F_no_call => Ok (Some rcv)
          | _ => Ok None
          end
        else Ok (Some c)
    | _ => UB
    end
  else Ok (Some c).
(** objmodel.c 628-630 potion_lobby_can *)
Definition lobby_can (fuel : nat) (w : world) (self method : Z) : res Z :=
  do c <- bind_msg fuel w self method; Ok (if negb (c =? PN_NIL) then PN_TRUE else PN_FALSE).

(** ** Kinship *)
(** objmodel.c 554-561 potion_lobby_isa; None: an error object *)
Definition lobby_isa (w : world) (self vt : Z) : res (option Z) :=
  do t <- PN_TYPE w self;
  do v <- get_vt w vt;
  if negb (PN_TYPECHECK w (v_type v)) then Ok None
  else if PN_IS_PTR self && negb (PN_TYPECHECK w t) then Ok None
  else Ok (Some (if t =? v_type v then PN_TRUE else PN_FALSE)).
Fixpoint subclass_loop (fuel : nat) (w : world) (t t0 : Z) : res Z :=
  match fuel with
  | O => NoFuel
  | S f =>
    do a <- PN_VTABLE w t;
    do v <- get_vt w a;
    if v_parent v =? 0 then Ok PN_FALSE
    else if t0 =? v_parent v then Ok PN_TRUE
    else subclass_loop f w (v_parent v) t0
  end.
(** objmodel.c 566-580 potion_object_subclass *)
Definition object_subclass (fuel : nat) (w : world) (self vt : Z) : res Z :=
  do t <- PN_TYPE w self;
  do i <- lobby_isa w self vt;
  match i with
  | Some r => if r =? PN_TRUE then Ok PN_TRUE else
    do v <- get_vt w vt;
    if negb (PN_IS_PTR self) then
      Ok (if v_type v =? PN_TNUMBER then (if t =? PN_TINTEGER then PN_TRUE else PN_FALSE) else PN_FALSE)
    else subclass_loop fuel w t (v_type v)
  | None =>
    do v <- get_vt w vt;
    if negb (PN_IS_PTR self) then
      Ok (if v_type v =? PN_TNUMBER then (if t =? PN_TINTEGER then PN_TRUE else PN_FALSE) else PN_FALSE)
    else subclass_loop fuel w t (v_type v)
  end.
(** objmodel.c 607-611 potion_lobby_kind *)
Definition lobby_kind (w : world) (self : Z) : res Z :=
  do t <- PN_TYPE w self;
  if negb (PN_TYPECHECK w t) then Ok PN_NIL else PN_VTABLE w t.

(** ** Start-up *)
(** internal.c 31-53 potion_init: the built-in types in order, as (type, parent) *)
Definition builtin_types : list (Z * Z) :=
  [(PN_TLOBBY, 0); (PN_TVTABLE, PN_TLOBBY); (PN_TOBJECT, PN_TLOBBY); (PN_TNUMBER, PN_TOBJECT);
   (PN_TDOUBLE, PN_TNUMBER); (PN_TINTEGER, PN_TNUMBER); (PN_TNIL, PN_TOBJECT); (PN_TBOOLEAN, PN_TOBJECT);
   (PN_TSTRING, PN_TOBJECT); (PN_TTABLE, PN_TOBJECT); (PN_TCLOSURE, PN_TOBJECT); (PN_TTUPLE, PN_TOBJECT);
   (PN_TFILE, PN_TOBJECT); (PN_TSTATE, PN_TOBJECT); (PN_TSOURCE, PN_TOBJECT); (PN_TBYTES, PN_TOBJECT);
   (PN_TPROTO, PN_TOBJECT); (PN_TWEAK, PN_TOBJECT); (PN_TLICK, PN_TOBJECT); (PN_TERROR, PN_TOBJECT);
   (PN_TCONT, PN_TOBJECT)].
Fixpoint boot_types (l : list (Z * Z)) (w : world) : res world :=
  match l with
  | [] => Ok w
  | (t, p) :: r =>
    do self <- (if p =? 0 then Ok PN_NIL else PN_VTABLE w p);
    do (w, _) <- type_new w t self;
    boot_types r w
  end.
(** internal.c 120-131 potion_create (24 slots), potion_init 31-53, and 91:
    the method "lookup" of class Mixin *)
Definition boot : res world :=
  do w <- boot_types builtin_types (mkW [] (repeat 0 24) 0);
  do l <- PN_VTABLE w PN_TLOBBY;
  let w := mkW (w_heap w) (w_vts w) l in
  do vt <- PN_VTABLE w PN_TVTABLE;
  let '(w, f) := closure_new w F_lookup PN_NIL 0 in
  do (w, _) <- def_method w vt PN_lookup f;
  Ok w.
End Obj.
