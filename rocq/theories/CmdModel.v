(** Model of core/potion.c: the command line (main, addmodule) and what is run
    (potion_cmd_exec).  Build without DEBUG, STATIC and SANDBOX; arguments are C strings
    (lists of non-zero bytes), argv[argc] is NULL.  A string constant's address and the
    writing of NULs into argv by addmodule are not modelled (the arguments it writes into are not looked at again). *)
From Coq Require Import Ascii String.
From Verif Require Import Base Arr WordModel FileModel.

(** string constants of the C text *)
Definition lit (s : string) : list Z := map (fun c => Z.of_nat (nat_of_ascii c)) (list_ascii_of_string s).
Definition is (a : list Z) (s : string) : bool := same_name a (lit s).
(** potion.h 614-641 *)
Definition EXEC_VM := 0. Definition EXEC_JIT := 1. Definition EXEC_DEBUG := 2. Definition EXEC_CHECK := 3. Definition EXEC_COMPILE := 4.
Definition EXEC_BITS := 4.
Definition DEBUG_INSPECT := 64. Definition DEBUG_VERBOSE := 128.

(** the variables of main *)
Record cmd := mkCmd { c_flags : Z; c_exec : Z; c_compile : option (list Z); c_buf : option (list Z);
  c_add : option (list Z); c_paths : list (list Z); c_unknown : list (list Z) }.
Definition set_flag b c := mkCmd (Z.lor (c_flags c) b) (c_exec c) (c_compile c) (c_buf c) (c_add c) (c_paths c) (c_unknown c).
Definition set_exec e k c := mkCmd (c_flags c) e k (c_buf c) (c_add c) (c_paths c) (c_unknown c).
Definition set_mod m e c := mkCmd (c_flags c) e (c_compile c) (c_buf c) (Some m) (c_paths c) (c_unknown c).
Definition set_buf b c := mkCmd (c_flags c) (c_exec c) (c_compile c) (Some b) (c_add c) (c_paths c) (c_unknown c).
Definition add_path p c := mkCmd (c_flags c) (c_exec c) (c_compile c) (c_buf c) (c_add c) (c_paths c ++ [p]) (c_unknown c).
Definition complain a c := mkCmd (c_flags c) (c_exec c) (c_compile c) (c_buf c) (c_add c) (c_paths c) (c_unknown c ++ [a]).
Definition cat (add : option (list Z)) (t : list Z) : list Z := match add with Some m => m ++ t | None => t end.

(** 244-259 addmodule: the parameter [result] is not used; 245 strchr *)
Definition addmodule (prefix : option (list Z)) (name : list Z) : list Z :=
  let (name, args) := match split_env name with Some (n, a) => (n, a) | None => (name, []) end in
  lit "load """ ++ match prefix with Some p => p ++ lit "/" | None => [] end ++ name ++ [34; 10] ++ name ++ lit "(" ++ args ++ [41; 10].

(** 281-381: how the loop ends *)
Inductive ends := Version | Usage | Stats | Crash | Stop (c : cmd) (rest : list (list Z)).
Fixpoint opts (c : cmd) (l : list (list Z)) : ends :=
  match l with
  | [] => Stop c []
  | a :: l' =>
      if is a "--" then Stop c l'
      else if is a "-I" || is a "--inspect" then opts (set_flag DEBUG_INSPECT c) l'
      else if is a "-L" then match l' with p :: l'' => opts (add_path p c) l'' | [] => Crash end  (* 296: i == argc never holds here *)
      else if is a "-V" || is a "--verbose" then opts (set_flag DEBUG_VERBOSE c) l'
      else if is a "-v" || is a "--version" then Version
      else if is a "-h" || is a "--help" then Usage
      else if is a "-s" || is a "--stats" then Stats
      else if is a "--check" then opts (set_exec EXEC_CHECK (c_compile c) c) l'
      else if same_name (ztake 10 a) (lit "--compile=") then opts (set_exec EXEC_COMPILE (Some (zdrop 10 a)) c) l'
      else if is a "--compile" || is a "-c" then opts (set_exec EXEC_COMPILE None c) l'
      else if is a "-B" || is a "--bytecode" then opts (set_exec EXEC_VM (c_compile c) c) l'
      else if is a "-X" || is a "--x86" then opts (set_exec EXEC_JIT (c_compile c) c) l'
      else if is a "--debug" || is a "-d" then opts (set_mod (addmodule None (lit "debug")) EXEC_DEBUG c) l'
      else if is a "--debug=" then Crash                                  (* 326: &argv[i][9] is beyond the string *)
      else match a with
           | 45 :: 100 :: m =>                                            (* -d...; 329-335 *)
               match m with
               | 61 :: args => opts (set_mod (addmodule None (lit "debug=" ++ args)) EXEC_DEBUG c) l'
               | _ => opts (set_mod (addmodule (Some (lit "debug")) m) EXEC_DEBUG c) l'
               end
           | 45 :: 77 :: m => opts (set_mod (addmodule None m) (c_exec c) c) l'    (* -M...; 336-338 *)
           | 45 :: 101 :: code =>                                         (* -e...; 364-380: i is not advanced *)
               match code, l' with
               | [], [] => Crash
               | [], a' :: _ => opts (set_buf (cat (c_add c) a') c) l'
               | _, _ => opts (set_buf (cat (c_add c) code) c) l'
               end
           | 45 :: _ => opts (complain a c) l'                            (* 382 *)
           | _ => Stop c (a :: l')                                        (* 386 *)
           end
  end.
(** 389-428: what is run, and the global argv *)
Inductive source := Text (t : list Z) | File (name : list Z) (before : option (list Z)).
Inductive outcome := Shows (e : ends) | Runs (c : cmd) (flags : Z) (argv : list (list Z)) (s : source) | NoFile (c : cmd) | Prompt (c : cmd) (flags : Z).
Definition main (jit : bool) (args : list (list Z)) : outcome :=
  match opts (mkCmd 0 (if jit then EXEC_JIT else EXEC_VM) None None None [] []) args with
  | Stop c rest =>
      let flags := c_flags c + c_exec c in
      match c_buf c, rest with
      | Some t, _ => Runs c flags (lit "-e" :: rest) (Text t)
      | None, f :: rest => Runs c flags (f :: rest) (File f (c_add c))
      | None, [] => if (c_exec c =? 0) || negb (Z.land flags DEBUG_INSPECT =? 0) then NoFile c else Prompt c flags
      end
  | e => Shows e
  end.
(** 74: the mode in the flags *)
Definition mode_of (flags : Z) : Z := Z.land flags (Z.shiftl 1 EXEC_BITS - 1).

(** ** potion_cmd_exec *)
(** 78-118: the text to be run; None: a message, nothing is run.  [n] is st_size of the file that has the name
    at the time of the stat; bytes that read does not fill are not used *)
Definition cmd_file (w : os) (name : list Z) (before : option (list Z)) (n : Z) (w' : os) (t : option (list Z)) : Prop :=
  exists w1 fd, sys_open w name O_RDONLY w1 fd /\
  (if fd =? -1 then w' = w1 /\ t = None
   else exists r buf, sys_read w1 fd n w' r buf /\ t = if r =? n then Some (cat before buf) else None).
(** 178-197: the file the compiled code is written to, in a buffer of 255 bytes; None: the buffer is left
    uninitialised (the strcmp of an unknown target), or written past its end *)
Definition target (compile : option (list Z)) : option (list Z) :=
  match compile with
  | None => None
  | Some k => Some ((fix cut l := match l with [] => [] | c :: l => if c =? 44 then [] else c :: cut l end) k)
  end.
Definition out_suffix (compile : option (list Z)) : option (list Z) :=
  match target compile with
  | None => Some (lit "b")
  | Some k => if is k "bc" then Some (lit "b") else if is k "c" then Some (lit ".c") else if is k "exe" then Some (lit ".out") else None
  end.
Definition outpath (compile : option (list Z)) (name : list Z) : res (list Z) :=
  match out_suffix compile with
  | Some s => if zlen name + zlen s + 1 <=? 255 then Ok (name ++ s) else UB
  | None => UB
  end.
