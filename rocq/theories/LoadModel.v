(** Model of core/load.c: finding a file to load and deciding how to load it.

    Characters are numbers; a [char *] is the list of the bytes of its object.  A byte
    that has not been written yet is [None], and reading it, like reading or writing
    outside of the object, is undefined.  The file system is the parameter [regular]:
    which paths name a regular file; it does not change during one search.  Lengths are
    unbounded (the code keeps them in 32 bit words). *)
From Verif Require Import Base Arr DumpModel.

Definition cells := list (option Z).
Definition c_dot : Z := 46.
Definition c_slash : Z := 47.

(** one store, and [memcpy]/[strcpy] (the latter with the terminator in [src]) *)
Definition cwr (m : cells) (i v : Z) : res cells :=
  if (0 <=? i) && (i <? zlen m)
  then Ok (firstn (Z.to_nat i) m ++ Some v :: skipn (S (Z.to_nat i)) m) else UB.
Fixpoint cput (m : cells) (i : Z) (src : list Z) : res cells :=
  match src with
  | [] => Ok m
  | c :: src => do m <- cwr m i c; cput m (i + 1) src
  end.
(** the C string in an object: up to the first NUL *)
Fixpoint cstr (m : cells) : res (list Z) :=
  match m with
  | Some 0 :: _ => Ok []
  | Some c :: m => do r <- cstr m; Ok (c :: r)
  | _ => UB
  end.
(** [char buf[n]] *)
Definition fresh_cells (n : Z) : cells := repeat None (Z.to_nat n).

(** [memchr] over the bytes read *)
Fixpoint memchr (c : Z) (l : list Z) : option Z :=
  match l with
  | [] => None
  | x :: l => if x =? c then Some 0 else match memchr c l with Some i => Some (i + 1) | None => None end
  end.
(** [strrchr(s, c)]: the index of the last occurrence *)
Fixpoint strrchr (c : Z) (l : list Z) : option Z :=
  match l with
  | [] => None
  | x :: l => match strrchr c l with Some i => Some (i + 1) | None => if x =? c then Some 0 else None end
  end.

(** load.c 95-99 pn_loader_extensions, with POTION_LOADEXT ".so" *)
Definition ext_pnb : list Z := [46; 112; 110; 98].
Definition ext_pn : list Z := [46; 112; 110].
Definition ext_so : list Z := [46; 115; 111].
Definition pn_loader_extensions : list (list Z) := [ext_pnb; ext_pn; ext_so].

Section Find.
  Variable regular : list Z -> bool.

  (** load.c 107-111: the path tried for one extension *)
  Definition with_ext (str ext : list Z) : res (list Z) :=
    let buf := fresh_cells (zlen str + zlen ext + 1) in
    do buf <- cput buf 0 (str ++ [0]);
    do buf <- cput buf (zlen str) (ext ++ [0]);
    do buf <- cwr buf (zlen str + zlen ext) 0;
    cstr buf.
  (** load.c 100-116 *)
  Fixpoint find_extension (exts : list (list Z)) (str : list Z) : res (option (list Z)) :=
    match exts with
    | [] => Ok None
    | e :: exts =>
      do buf <- with_ext str e;
      if regular buf then Ok (Some e) else find_extension exts str
    end.
  (** load.c 137-140: [strrchr(str, '/')], or the whole string *)
  Definition file_part (str : list Z) : list Z :=
    match strrchr c_slash str with Some i => zdrop (i + 1) str | None => str end.
  (** load.c 122-155, one prefix.  [str] is the memory of the argument, terminator
      included; what is left of it is returned with the path found *)
  Definition find_in (prefix str : list Z) (str_len : Z) : res (list Z * option (list Z)) :=
    let prefix_len := zlen prefix in
    let size := prefix_len + 1 + str_len + 1 in
    let dirname := fresh_cells size in
    do src <- (if str_len <=? zlen str then Ok (ztake str_len str) else UB);
    do dirname <- cput dirname (prefix_len + 1) src;
    do (dirname, str) <- match memchr c_dot src with
                         | None => do d <- cwr dirname (size - 1) 0; Ok (d, str)
                         | Some i => do s <- wr str i 0; Ok (dirname, s)
                         end;
    do dirname <- cput dirname 0 prefix;
    do dirname <- cwr dirname prefix_len c_slash;
    do dn <- cstr dirname;
    if regular dn then Ok (str, Some dn) else
    do ext <- find_extension pn_loader_extensions dn;
    match ext with
    | Some ext => Ok (str, Some (dn ++ ext))
    | None =>
      do s <- cstr (map Some str);
      let r := dn ++ c_slash :: file_part s in
      if regular r then Ok (str, Some r) else
      let r_len := prefix_len + 1 + str_len * 2 + 1 in
      do ext <- find_extension pn_loader_extensions r;
      match ext with
      | None => Ok (str, None)
      | Some ext =>
        (* realloc(r, r_len + strlen(ext)): the old bytes, then unwritten ones *)
        let old := map Some (r ++ [0]) in
        let new_len := r_len + zlen ext in
        let m := firstn (Z.to_nat new_len) (old ++ fresh_cells (new_len - zlen old)) in
        do m <- cput m r_len (ext ++ [0]);
        do r <- cstr m;
        Ok (str, Some r)
      end
    end.
  (** load.c 118-160: the first prefix under which something is found *)
  Fixpoint find_file (path : list (list Z)) (str : list Z) (str_len : Z) : res (list Z * option (list Z)) :=
    match path with
    | [] => Ok (str, None)
    | prefix :: path =>
      do (str, r) <- find_in prefix str str_len;
      match r with Some r => Ok (str, Some r) | None => find_file path str str_len end
    end.
  (** load.c 121 *)
  Definition potion_find_file (path : list (list Z)) (str : list Z) (str_len : Z) : res (list Z * option (list Z)) :=
    do n <- (if str_len =? 0 then do s <- cstr (map Some str); Ok (zlen s) else Ok str_len);
    find_file path str n.

  (** load.c 173-174 [while ( *--file_ext != '.' && file_ext >= filename);]: the byte is
      read before the bound is checked.  [k] is the number of bytes before the pointer *)
  Fixpoint last_dot (filename : list Z) (k : nat) : res Z :=
    match k with
    | O => UB
    | S k => if nth k filename 0 =? c_dot then Ok (Z.of_nat k) else last_dot filename k
    end.
  (** what potion_load does with the name it was given *)
  Inductive loading :=
  | LNotFound                      (* 168-171 "can't find" *)
  | LNoExt (f : list Z)            (* 184-185 "no file extension" *)
  | LBadExt (e : list Z)           (* 182-183 "unrecognized file extension" *)
  | LCode (f : list Z)             (* 177-179 potion_load_code *)
  | LDylib (f : list Z).           (* 180-181 potion_load_dylib *)
  Definition list_eqb (a b : list Z) : bool := if list_eq_dec Z.eq_dec a b then true else false.
  (** load.c 173-187 *)
  Definition by_extension (filename : list Z) : res loading :=
    do i <- last_dot filename (length filename);
    if negb (i =? 0) then
      let file_ext := zdrop (i + 1) filename in
      if list_eqb file_ext (tl ext_pn) then Ok (LCode filename)
      else if list_eqb file_ext (tl ext_pnb) then Ok (LCode filename)
      else if list_eqb file_ext (tl ext_so) then Ok (LDylib filename)
      else Ok (LBadExt file_ext)
    else Ok (LNoExt filename).
  (** load.c 162-187; [str] is the memory of the string [file], [zlen str - 1] its length *)
  Definition potion_load (path : list (list Z)) (str : list Z) : res (list Z * loading) :=
    do (str, r) <- potion_find_file path str (zlen str - 1);
    match r with
    | None => Ok (str, LNotFound)
    | Some filename => do l <- by_extension filename; Ok (str, l)
    end.
End Find.

(** load.c 195-203; [home] is POTION_PREFIX *)
Definition s_lib : list Z := [108; 105; 98; 47; 112; 111; 116; 105; 111; 110].
Definition loader_init (home : list Z) : list (list Z) := [s_lib; home ++ c_slash :: s_lib; [c_dot]].
(** load.c 191-193 *)
Definition loader_add (path : list (list Z)) (p : list Z) : list (list Z) := path ++ [p].

(** load.c 16-51 potion_load_code once the file is open; [contents] are its bytes.  What
    is loaded as bytecode is not run *)
Inductive code_loaded := CLNotRun | CLRun (text : list Z).
Definition load_code (fuel : nat) (contents : list Z) : res code_loaded :=
  do p <- source_load fuel contents;
  match p with Some _ => Ok CLNotRun | None => Ok (CLRun contents) end.

(** load.c 53-68 potion_initializer_name, without the two copies.  [filename] is followed
    by its terminator; the first loop starts at index 1 and reads before it compares *)
Fixpoint first_dot (fuel : nat) (filename : list Z) (n : Z) : res Z :=
  match fuel with
  | O => NoFuel
  | S fuel =>
    let n := n + 1 in
    if n >? zlen filename then UB                 (* *(filename + n), one past the terminator *)
    else if nth (Z.to_nat n) filename 0 =? c_dot then Ok n
    else if n <=? zlen filename then first_dot fuel filename n else Ok n
  end.
(** load.c 62 [while ( *--ext_name != '/' && ext_name >= allocated_str);] *)
Fixpoint last_slash (name : list Z) (k : nat) : res Z :=
  match k with
  | O => UB
  | S k => if nth k name 0 =? c_slash then Ok (Z.of_nat k) else last_slash name k
  end.
Definition s_init : list Z := [80; 111; 116; 105; 111; 110; 95; 73; 110; 105; 116; 95].
Definition initializer_name (filename : list Z) : res (list Z) :=
  do n <- first_dot (S (length filename)) filename 0;
  let ext_name := ztake n filename in
  do i <- last_slash ext_name (length ext_name);
  Ok (s_init ++ zdrop (i + 1) ext_name).
