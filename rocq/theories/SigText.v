(** Specification of signature texts, as a C function is registered with: the texts of
    a parameter list.  A parameter list is a list of [item] (PropSig); nothing here
    refers to the grammar file. *)
From Verif Require Import Base WordModel NumModel SigModel PropSig TextSpec.

(** the letters of the types: N B I D S & o T a u b n s F P l k f t x r c d m *)
Definition type_letters : list Z :=
  [78;66;73;68;83;38;111;84;97;117;98;110;115;70;80;108;107;102;116;120;114;99;100;109].
(** the modifiers: - \ * *)
Definition modifiers : list Z := [45; 92; 42].

Section SigText.
  Context (str : list Z -> Z).
  (** a name: a letter, then letters and digits; reserved words are allowed *)
  Definition pname (n : Z) : lang := fun s => exists w, path_ident w = true /\ str w = n /\ tok w s.
  Definition ptype (t : Z) : lang := fun s => exists c, In c type_letters /\ t = PN_NUM c /\ tok [c] s.
  Definition modifier (m : Z) : lang := fun s => exists c, In c modifiers /\ m = PN_NUM c /\ s = [c].
  (** a default value; [q]: is it a quoted string? *)
  Definition default_text (q : bool) (d : Z) : lang := fun s => exists w, tok w s /\
    if q then exists l, forallb quotable l = true /\ d = str l /\ w = quoted l
    else (d = PN_NIL /\ w = [110; 105; 108]) \/ (d = PN_TRUE /\ w = [116; 114; 117; 101])
         \/ (d = PN_FALSE /\ w = [102; 97; 108; 115; 101])
         \/ (exists n, 0 <= n < two62 /\ d = PN_NUM n /\ w = sprintf_ld n).
  (** one parameter: x   x=N   x:=7   -x   -x=N; or the dots ... *)
  Inductive arg : bool -> item -> lang :=
  | arg_plain n s : pname n s -> arg false (Param n Plain) s
  | arg_typed n t a b c : pname n a -> tokn [61] b -> ptype t c -> arg false (Param n (Typed t)) (a ++ b ++ c)
  | arg_default q n d a b c : pname n a -> tokn [58; 61] b -> default_text q d c -> arg q (Param n (Default d)) (a ++ b ++ c)
  | arg_mod n m a b : modifier m a -> pname n b -> arg false (Param n (Modified PN_NIL m)) (a ++ b)
  | arg_modt n t m a b c d : modifier m a -> pname n b -> tokn [61] c -> ptype t d ->
      arg false (Param n (Modified t m)) (a ++ b ++ c ++ d)
  | arg_dots s : tok [46; 46; 46] s -> arg false Dots s.
  (** parameters with commas between them; [q]: is one of the defaults a quoted string? *)
  Inductive arg_set : bool -> list item -> lang :=
  | set_one q i s : arg q i s -> arg_set q [i] s
  | set_more q i a b q' l c : arg q i a -> tok [44] b -> arg_set q' l c -> arg_set (q || q') (i :: l) (a ++ b ++ c).
  (** a bar may stand before the optional ones *)
  Inductive arg_list : bool -> list item -> lang :=
  | list_one q l s : arg_set q l s -> arg_list q l s
  | list_bar q l a b q' m c : arg_set q l a -> tok [124] b -> arg_set q' m c -> arg_list (q || q') (l ++ Bar :: m) (a ++ b ++ c)
  | list_opt q m b c : tok [124] b -> arg_set q m c -> arg_list q (Bar :: m) (b ++ c).
  (** full stops between lists *)
  Inductive arg_lists : bool -> list item -> lang :=
  | lists_one q l s : arg_list q l s -> arg_lists q l s
  | lists_more q l a b q' m c : arg_list q l a -> tok [46] b -> arg_lists q' m c -> arg_lists (q || q') (l ++ Dots :: m) (a ++ b ++ c).
  (** and possibly dots at the end *)
  Inductive sig_text : bool -> list item -> lang :=
  | sig_lists q l s : arg_lists q l s -> sig_text q l s
  | sig_dots q l a b : arg_lists q l a -> tok [46; 46; 46] b -> sig_text q (l ++ [Dots]) (a ++ b).
End SigText.
