(** Specification of UTF-8 (RFC 3629), independent of potion's code. *)
From Verif Require Import Base Arr.

(** Unicode scalar values *)
Definition scalar (c : Z) : Prop := 0 <= c <= 1114111 /\ ~ (55296 <= c <= 57343).
(** the encoding of one scalar value *)
Definition encode (c : Z) : list Z :=
  if c <? 128 then [c]
  else if c <? 2048 then [192 + c / 64; 128 + c mod 64]
  else if c <? 65536 then [224 + c / 4096; 128 + (c / 64) mod 64; 128 + c mod 64]
  else [240 + c / 262144; 128 + (c / 4096) mod 64; 128 + (c / 64) mod 64; 128 + c mod 64].
(** a text is a list of code points other than NUL; its bytes *)
Definition text (cps : list Z) : Prop := Forall (fun c => scalar c /\ c <> 0) cps.
Definition utf8 (cps : list Z) : list Z := flat_map encode cps.
(** a continuation byte 10xxxxxx *)
Definition iscont (b : Z) : bool := (128 <=? b) && (b <=? 191).
