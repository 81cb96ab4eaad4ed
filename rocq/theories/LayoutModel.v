(** The flat storage of a hash table: khash.h 22-35, 39, 45-51.  Every group of
    16 buckets starts with one 32-bit word holding two flag bits per bucket,
    followed by the 16 key/value pairs. *)
From Verif Require Import Base Arr GArr KhashModel.

(** khash.h 45: bytes of a key (and value) *)
Definition kh_pair (is_map : bool) : Z := if is_map then 16 else 8.
(** khash.h 46-49, in 32-bit arithmetic *)
Definition kh_size (m : bool) (n : Z) : Z := u32 (u32 ((Z.shiftr n 4 + 1) * 4) + u32 (n * kh_pair m)).
Definition kh_flag (m : bool) (i : Z) : Z := u32 (Z.shiftr i 4 * (4 + 4 * 4 * kh_pair m)).
Definition kh_key_at (m : bool) (i : Z) : Z := u32 (u32 ((Z.shiftr i 4 + 1) * 4) + u32 (i * kh_pair m)).
Definition kh_val_at (m : bool) (i : Z) : Z := u32 (kh_key_at m i + 8).
(** khash.h 39 *)
Definition ac_fsize (m : Z) : Z := if m <? 16 then 1 else Z.shiftr m 4.

(** the shift amount of bucket i inside its word: (i & 0xf) << 1 *)
Definition fshift (i : Z) : Z := Z.shiftl (Z.land i 15) 1.
(** khash.h 28-30 (and 26): the tests, on the flag word of the bucket *)
Definition w_isempty (w i : Z) : bool := negb (Z.land (Z.shiftr w (fshift i)) 2 =? 0).
Definition w_isdel (w i : Z) : bool := negb (Z.land (Z.shiftr w (fshift i)) 1 =? 0).
Definition w_iseither (w i : Z) : bool := negb (Z.land (Z.shiftr w (fshift i)) 3 =? 0).
(** khash.h 27, 31-34: the updates; ~ and << are on unsigned long, the store
    truncates to 32 bits *)
Definition w_set_isdel_false (w i : Z) : Z := u32 (Z.land w (u64 (Z.lnot (u64 (Z.shiftl 1 (fshift i)))))).
Definition w_set_isempty_false (w i : Z) : Z := u32 (Z.land w (u64 (Z.lnot (u64 (Z.shiftl 2 (fshift i)))))).
Definition w_set_isboth_false (w i : Z) : Z := u32 (Z.land w (u64 (Z.lnot (u64 (Z.shiftl 3 (fshift i)))))).
Definition w_set_isdel_true (w i : Z) : Z := u32 (Z.lor w (u64 (Z.shiftl 1 (fshift i)))).

(** a flag store: the word of bucket i is word number i>>4 *)
Definition fwords := Z -> Z.
Definition upd_word (ws : fwords) (i : Z) (f : Z -> Z -> Z) : fwords :=
  fun g => if g =? Z.shiftr i 4 then f (ws g) i else ws g.
Definition flag_of (ws : fwords) (i : Z) : flag :=
  (w_isempty (ws (Z.shiftr i 4)) i, w_isdel (ws (Z.shiftr i 4)) i).

(** khash.h 87: memset(new_flags, 0xaa, ...) *)
Definition fresh_word : Z := 2863311530.
(** khash.h 120-122: the indices j of new_flags[j] that are read when the flags
    are copied back: j = (new_n >> 4) + 1; while (j-- > 0) ... new_flags[j] *)
Definition flag_copy_reads (new_n : Z) : list Z := zseq 0 (Z.to_nat (Z.shiftr new_n 4 + 1)).
