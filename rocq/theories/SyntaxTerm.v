(** The grammar has no left recursion and repeats no possibly empty phrase; hence
    parsing any text terminates. *)
From Verif Require Import Base CompileModel PegModel PegTerm SyntaxModel.

Definition maybe_empty (r : rule) : bool :=
  match r with
  | r_potion | r_statements | r_lick_items | r_sp | r_nl | r_eof => true
  | _ => false
  end.
Definition rule_rank (r : rule) : nat :=
  match r with
  | r_potion => 18 | r_statements => 17 | r_stmt => 16 | r_sets => 15 | r_eqs => 14 | r_cmps => 13
  | r_bitors => 12 | r_bitand => 11 | r_bitshift => 10 | r_sum => 9 | r_product => 8 | r_power => 7
  | r_expr => 6 | r_atom => 5 | r_call => 4 | r_name => 3 | r_value => 3 | r_loose => 4
  | r_lick_items => 6 | r_lick_item => 5 | r_closure => 2 | r_immed => 2 | r_tuple => 2
  | r_list | r_block | r_lick | r_group | r_msg | r_utf8 | r_str1 | r_str2 => 1
  | r_escn | r_escb | r_escf | r_escr | r_esct | r_escu | r_escU | r_escc => 1
  | r_c1 | r_c2 | r_unq_char | r_unq_sep => 2 | r_unquoted => 3
  | r_sp | r_nl | r_sep => 1
  | r_sig => 6 | r_args => 5 | r_arg_list => 4 | r_arg_set => 3 | r_arg => 2 | r_arg_name => 1
  | _ => 0
  end.
Lemma maybe_empty_ok : forall r, nullable maybe_empty (grammar r) = true -> maybe_empty r = true.
Proof. destruct r; vm_compute; intros; congruence. Qed.
Lemma rule_rank_ok : forall r, ok maybe_empty rule_rank 19 (rule_rank r) (grammar r) = true.
Proof. destruct r; vm_compute; reflexivity. Qed.

Lemma rule_halts : forall r s be, exists n o, run grammar nvars n (Rul r) s be = Some o.
Proof.
  intros r s be.
  apply (halts_all grammar nvars maybe_empty maybe_empty_ok rule_rank 19 rule_rank_ok (S (length s)) 19 (Rul r) s).
  - lia.
  - destruct r; vm_compute; reflexivity.
Qed.
