(** Model of core/file.c: files, the global "read" and the table Env.

    The operating system is a specification, not code: files are byte sequences behind
    names, descriptors carry a position; a read may be short, a write may be partial,
    any call may fail, close may be interrupted.  Not modelled: permissions, several
    names for one file, pipes and devices. *)
From Verif Require Import Base Arr WordModel.

(** ** The operating system *)
Record desc := mkDesc { d_ino : Z; d_pos : Z; d_acc : Z; d_app : bool }.
Record os := mkOs { ino : Z -> list Z; names : list Z -> option Z; fds : Z -> option desc }.
Definition set_fd (w : os) (fd : Z) (d : option desc) : os :=
  mkOs (ino w) (names w) (fun k => if k =? fd then d else fds w k).
Definition set_ino (w : os) (i : Z) (c : list Z) : os :=
  mkOs (fun k => if k =? i then c else ino w k) (names w) (fds w).
(** fcntl.h on Linux *)
Definition O_RDONLY := 0.
Definition O_WRONLY := 1.
Definition O_RDWR := 2.
Definition O_CREAT := 64.
Definition O_TRUNC := 512.
Definition O_APPEND := 1024.
Definition flag (fl bit : Z) : bool := negb (Z.land fl bit =? 0).
Definition same_name (a b : list Z) : bool := if list_eq_dec Z.eq_dec a b then true else false.
(** open(2): an existing file, or a new empty one if asked for *)
Definition found (w : os) (p : list Z) (fl : Z) (w' : os) (i : Z) : Prop :=
  (names w p = Some i /\ w' = w) \/
  (names w p = None /\ flag fl O_CREAT = true /\ (forall q, names w q <> Some i) /\ (forall k d, fds w k = Some d -> d_ino d <> i) /\
   w' = mkOs (fun k => if k =? i then [] else ino w k) (fun q => if same_name q p then Some i else names w q) (fds w)).
Inductive sys_open (w : os) (p : list Z) (fl : Z) : os -> Z -> Prop :=
| open_fails : sys_open w p fl w (-1)
| open_gives fd i w1 : 0 <= fd < 2147483648 -> fds w fd = None -> found w p fl w1 i ->
    sys_open w p fl
      (set_fd (if flag fl O_TRUNC then set_ino w1 i [] else w1) fd (Some (mkDesc i 0 (fl mod 4) (flag fl O_APPEND)))) fd.
(** read(2): at least one byte unless the file ends here *)
Inductive sys_read (w : os) (fd n : Z) : os -> Z -> list Z -> Prop :=
| read_fails : sys_read w fd n w (-1) []
| read_gives d k : fds w fd = Some d -> d_acc d <> O_WRONLY ->
    let rest := zdrop (d_pos d) (ino w (d_ino d)) in
    0 <= k <= n -> k <= zlen rest -> (k = 0 -> rest = []) ->
    sys_read w fd n (set_fd w fd (Some (mkDesc (d_ino d) (d_pos d + k) (d_acc d) (d_app d)))) k (ztake k rest).
(** write(2): some of the bytes, at the position or at the end; a gap is filled with 0 *)
Definition overwrite (c : list Z) (at_ : Z) (b : list Z) : list Z :=
  ztake at_ c ++ repeat 0 (Z.to_nat (at_ - zlen c)) ++ b ++ zdrop (at_ + zlen b) c.
Inductive sys_write (w : os) (fd : Z) (b : list Z) : os -> Z -> Prop :=
| write_fails : sys_write w fd b w (-1)
| write_does d k : fds w fd = Some d -> d_acc d <> O_RDONLY -> 0 <= k <= zlen b ->
    let at_ := if d_app d then zlen (ino w (d_ino d)) else d_pos d in
    sys_write w fd b
      (set_fd (set_ino w (d_ino d) (overwrite (ino w (d_ino d)) at_ (ztake k b))) fd
        (Some (mkDesc (d_ino d) (at_ + k) (d_acc d) (d_app d)))) k.
(** close(2): [intr]: was it EINTR?  The descriptor may be gone even so. *)
Inductive sys_close (w : os) (fd : Z) : os -> Z -> bool -> Prop :=
| close_ok d : fds w fd = Some d -> sys_close w fd (set_fd w fd None) 0 false
| close_bad : fds w fd = None -> sys_close w fd w (-1) false
| close_io d : fds w fd = Some d -> sys_close w fd (set_fd w fd None) (-1) false
| close_intr d w' : fds w fd = Some d -> w' = w \/ w' = set_fd w fd None -> sys_close w fd w' (-1) true.

(** ** The methods *)
(** internal.h struct PNFile *)
Record file := mkFile { f_fd : Z; f_path : option (list Z); f_mode : Z }.
(** answers; an I/O error is a PNError *)
Inductive answer := ANil | AError | ATypeError | AFile (f : file) | ABytes (l : list Z) | AInt (n : Z) | AEmpty | AUndefined.
(** the mode strings *)
Definition str_r := [114]. Definition str_rp := [114; 43]. Definition str_w := [119].
Definition str_wp := [119; 43]. Definition str_a := [97]. Definition str_ap := [97; 43].
(** file.c 43-58; strcmp stops at a NUL: the argument is a C string *)
Definition file_mode (m : list Z) : option Z :=
  if same_name m str_r then Some O_RDONLY
  else if same_name m str_rp then Some O_RDWR
  else if same_name m str_w then Some (Z.lor O_WRONLY (Z.lor O_TRUNC O_CREAT))
  else if same_name m str_wp then Some (Z.lor O_RDWR (Z.lor O_TRUNC O_CREAT))
  else if same_name m str_a then Some (Z.lor O_WRONLY (Z.lor O_CREAT O_APPEND))
  else if same_name m str_ap then Some (Z.lor O_RDWR (Z.lor O_CREAT O_APPEND))
  else None.
(** file.c 39-65 potion_file_new *)
Definition file_new (w : os) (path modestr : list Z) (w' : os) (v : answer) : Prop :=
  match file_mode modestr with
  | None => w' = w /\ v = ANil
  | Some m => exists fd, sys_open w path m w' fd /\ v = if fd =? -1 then AError else AFile (mkFile fd (Some path) m)
  end.
(** file.c 88-93 potion_file_close: again as long as it is interrupted *)
Inductive close_loop (fd : Z) : os -> os -> Prop :=
| close_done w w' r : sys_close w fd w' r false -> close_loop fd w w'
| close_again w w1 w' : sys_close w fd w1 (-1) true -> close_loop fd w1 w' -> close_loop fd w w'.
Definition file_close (w : os) (f : file) (w' : os) (f' : file) (v : answer) : Prop :=
  close_loop (f_fd f) w w' /\ f' = mkFile (-1) (f_path f) (f_mode f) /\ v = ANil.
(** file.c 99-112 potion_file_read: [char buf[n]] is undefined for n <= 0, the result
    of read(2) is stored in an int; the bytes object is a fresh buffer (BytesModel) *)
Definition read_answer (r : Z) (buf : list Z) : answer :=
  if r =? -1 then AError else if r =? 0 then ANil else if r <? 0 then AUndefined else ABytes (ztake r buf).
Definition file_read (w : os) (f : file) (n : Z) (w' : os) (v : answer) : Prop :=
  let n := PN_INT n in
  if n <=? 0 then v = AUndefined
  else exists r buf, sys_read w (f_fd f) n w' r buf /\ v = read_answer (s32 r) buf.
(** what is written: an integer and the booleans as words, a string, a byte buffer of
    the given length with its memory, a double with its bits, anything else *)
Inductive obj := ONil | OInt (w : Z) | OBool (b : bool) | OStr (c : list Z) | OBytes (len : Z) (mem : list Z) | ODbl (bits : Z) | OOther.
Fixpoint le (n : nat) (x : Z) : list Z := match n with O => [] | S n => x mod 256 :: le n (x / 256) end.
(** file.c 118-147: the length of a byte buffer is the answer to the message "length",
    an integer of the language, used as a C long; the integer is tagged once more *)
Inductive payload := PNone | PBad | PBytes (l : list Z) | PUndef.
Definition file_payload (o : obj) : payload :=
  match o with
  | ONil => PNone
  | OInt v => PBytes (le 8 (u64 (PN_NUM v)))
  | OBool b => PBytes [if b then 1 else 0]
  | OStr c => PBytes c
  | OBytes len mem => let l := PN_NUM len in if l <=? zlen mem then PBytes (ztake l mem) else PUndef
  | ODbl bits => PBytes (le 8 bits)
  | OOther => PBad
  end.
(** file.c 148-151 *)
Definition file_write (w : os) (f : file) (o : obj) (w' : os) (v : answer) : Prop :=
  match file_payload o with
  | PNone => w' = w /\ v = ANil
  | PBad => w' = w /\ v = ATypeError
  | PUndef => v = AUndefined
  | PBytes b => exists r, sys_write w (f_fd f) b w' r /\ v = if s32 r =? -1 then AError else AInt (s32 r)
  end.
(** file.c 156-159 potion_file_print; [text] is the answer to "string" *)
Definition file_print (w : os) (f : file) (text : list Z) (w' : os) (v : answer) : Prop :=
  exists v1, file_write w f (OStr text) w' v1 /\ v = match v1 with AInt _ => AEmpty | _ => v1 end.

(** ** Lines from the standard input *)
(** fgets(line, n, stdin) of the C library on the rest of the input: at most n - 1
    characters, up to and including a line feed; None at the end *)
Fixpoint fgets_take (n : nat) (inp : list Z) : list Z * list Z :=
  match n, inp with
  | S n, c :: inp' => if c =? 10 then ([c], inp') else let (l, r) := fgets_take n inp' in (c :: l, r)
  | _, _ => ([], inp)
  end.
Definition fgets (n : Z) (inp : list Z) : option (list Z * list Z) :=
  match inp with [] => None | _ => Some (fgets_take (Z.to_nat (n - 1)) inp) end.
(** a C string ends at the first NUL *)
Fixpoint to_nul (l : list Z) : list Z := match l with [] => [] | c :: l => if c =? 0 then [] else c :: to_nul l end.
(** file.c 183-188 potion_lobby_read; None is nil *)
Definition lobby_read (inp : list Z) : option (list Z) * list Z :=
  match fgets 1024 inp with Some (line, rest) => (Some (to_nul line), rest) | None => (None, []) end.

(** ** The environment *)
(** file.c 196-198: the name is what stands before the first '='; without one the loop
    runs past the end *)
Fixpoint split_env (e : list Z) : option (list Z * list Z) :=
  match e with
  | [] => None
  | c :: e => if c =? 61 then Some ([], e) else match split_env e with Some (k, v) => Some (c :: k, v) | None => None end
  end.
(** file.c 191-202: the entries put into the table, in order *)
Fixpoint env_puts (env : list (list Z)) : option (list (list Z * list Z)) :=
  match env with
  | [] => Some []
  | e :: env => match split_env e, env_puts env with Some kv, Some l => Some (kv :: l) | _, _ => None end
  end.
