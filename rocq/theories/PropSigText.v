(** Property C72: the text of a signature, as C code registers a function with. *)
From Verif Require Import Base Arr WordModel WordProofs NumModel NumProofs CompileModel PegModel SyntaxModel TextSpec SyntaxLit SigModel PropSig SigText SyntaxSig PropParse.
From Coq Require Import ZifyBool.
Ltac Zify.zify_post_hook ::= Z.div_mod_to_equations.

(** The words of the tuple [potion_sig] answers with; a semantic value that is a node
    of the syntax tree is none. *)
Definition word_of (v : sf) : option Z := match v with SNil => Some PN_NIL | SVal w => Some w | _ => None end.
(** [potion_sig] on [text] answers with the tuple of [words] *)
Definition sig_is (str dbl : list Z -> Z) (junk : Z -> sf) (text : list Z) (words : list Z) : Prop :=
  exists l, sig_parses str dbl junk text (PSig l) /\ map word_of l = map Some words.

Lemma sig_answers_once str dbl junk text r r' : sig_parses str dbl junk text r -> sig_parses str dbl junk text r' -> r = r'.
Proof. intros (n & A) (m & B). specialize (A (Nat.max n m) ltac:(lia)). specialize (B (Nat.max n m) ltac:(lia)). congruence. Qed.

(** Every text of a parameter list without quoted strings is read as that list, whatever the parser's stack held before. *)
Theorem C72_signature_text : forall str dbl junk l s, (forall w, str w <> PN_NIL) ->
  sig_text str false l s -> sig_is str dbl junk s (enc l).
Proof.
  intros str dbl junk l s N H. exists (map (fun v => sf_of v) (enc l)). split.
  - exact (sig_found str dbl N false l s junk H).
  - rewrite map_map. apply map_ext. intros v. unfold sf_of. destruct (v =? PN_NIL) eqn:E; cbn; [|reflexivity].
    apply Z.eqb_eq in E. subst. reflexivity.
Qed.
(** The answer is unique. *)
Theorem C72_one_answer : forall str dbl junk s a b, sig_is str dbl junk s a -> sig_is str dbl junk s b -> a = b.
Proof.
  intros str dbl junk s a b (l & A & A') (m & B & B'). pose proof (sig_answers_once _ _ _ _ _ _ A B) as E. injection E as <-.
  rewrite A' in B'. clear - B'. revert b B'. induction a as [|x a IH]; intros [|y b] H; try discriminate H; [reflexivity|].
  cbn [map] in H. injection H as -> H. f_equal. apply IH, H.
Qed.
(** A quoted string as a default value is not read: the parser goes through a null pointer. *)
Theorem C72_string_default_refuted : forall str dbl junk l s, (forall w, str w <> PN_NIL) ->
  sig_text str true l s -> sig_parses str dbl junk s PSUndef /\ forall words, ~ sig_is str dbl junk s words.
Proof.
  intros str dbl junk l s N H. pose proof (sig_found str dbl N true l s junk H) as F. split; [exact F|].
  intros words (m & A & _). pose proof (sig_answers_once _ _ _ _ _ _ A F) as E. discriminate E.
Qed.

(** ** From the text to the arity *)
Definition no_colon (i : item) : Prop := match i with Param _ (Default d) => d <> PN_NUM 58 | _ => True end.
Section Ok.
  Context (str : list Z -> Z) (is_str : Z -> bool).
  Hypothesis SO : strings_are_objects is_str.
  Hypothesis SS : forall w, is_str (str w) = true.
  Hypothesis SN : is_str PN_NIL = false.
  Lemma small_mark c : 0 <= c < 128 -> c <> 58 -> c <> 124 -> mark_ok is_str (PN_NUM c).
  Proof.
    intros B C D.
    assert (I : forall x, 0 <= x < 128 -> PN_INT (PN_NUM x) = x) by (intros x X; apply PN_INT_NUM, repb_spec; unfold two62; lia).
    split; [|split].
    - destruct (is_str (PN_NUM c)) eqn:E; [|reflexivity]. apply SO in E. rewrite PN_NUM_is_int in E. discriminate.
    - intros E. apply (f_equal PN_INT) in E. rewrite !I in E by lia. lia.
    - intros E. apply (f_equal PN_INT) in E. rewrite !I in E by lia. lia.
  Qed.
  Lemma type_mark t s : ptype t s -> mark_ok is_str t.
  Proof.
    intros (c & C & -> & _).
    assert (X : 0 <= c < 128 /\ c <> 58 /\ c <> 124).
    { unfold type_letters in C. cbn [In] in C. lia. }
    apply small_mark; lia.
  Qed.
  Lemma mod_mark m s : modifier m s -> mark_ok is_str m.
  Proof.
    intros (c & C & -> & _).
    assert (X : 0 <= c < 128 /\ c <> 58 /\ c <> 124).
    { unfold modifiers in C. cbn [In] in C. lia. }
    apply small_mark; lia.
  Qed.
  Lemma nil_mark : mark_ok is_str PN_NIL.
  Proof. split; [exact SN|]. split; discriminate. Qed.
  Lemma name_str n s : pname str n s -> is_str n = true.
  Proof. intros (w & _ & <- & _). apply SS. Qed.
  Lemma arg_ok q i s : arg str q i s -> no_colon i -> item_ok is_str i.
  Proof.
    intros A C. destruct A as [n s P|n t a b c P _ T|q n d a b c P _ D|n m a b M P|n t m a b c d M P _ T|s _]; cbn [item_ok];
      try (split; [eapply name_str; eassumption|]); auto.
    - eapply type_mark, T.
    - split; [apply nil_mark | eapply mod_mark, M].
    - split; [eapply type_mark, T | eapply mod_mark, M].
  Qed.
  Lemma set_ok q l s : arg_set str q l s -> Forall no_colon l -> Forall (item_ok is_str) l.
  Proof.
    induction 1 as [q i s A|q i a b q' l c A _ B IH]; intros F; inversion F; subst; constructor; auto; eapply arg_ok; eassumption.
  Qed.
  Lemma list_ok q l s : arg_list str q l s -> Forall no_colon l -> Forall (item_ok is_str) l.
  Proof.
    intros [q' l' s' A|q' l' a b q'' m c A _ B|q' m b c _ B] F.
    - eapply set_ok; eassumption.
    - apply Forall_app in F. destruct F as [F1 F2]. inversion F2; subst. apply Forall_app. split; [eapply set_ok; eassumption|].
      constructor; [exact Logic.I|]. eapply set_ok; eassumption.
    - inversion F; subst. constructor; [exact Logic.I|]. eapply set_ok; eassumption.
  Qed.
  Lemma lists_ok q l s : arg_lists str q l s -> Forall no_colon l -> Forall (item_ok is_str) l.
  Proof.
    induction 1 as [q l s A|q l a b q' m c A _ B IH]; intros F; [eapply list_ok; eassumption|].
    apply Forall_app in F. destruct F as [F1 F2]. inversion F2; subst. apply Forall_app. split; [eapply list_ok; eassumption|].
    constructor; [exact Logic.I | auto].
  Qed.
  Lemma sig_ok q l s : sig_text str q l s -> Forall no_colon l -> Forall (item_ok is_str) l.
  Proof.
    intros [q' l' s' A|q' l' a b A _] F; [eapply lists_ok; eassumption|].
    apply Forall_app in F. destruct F as [F1 F2]. apply Forall_app. split; [eapply lists_ok; eassumption|].
    constructor; [exact Logic.I | constructor].
  Qed.
End Ok.
(** The arity of a function registered with such a text is the number of its parameters,
    and the least number of arguments that of the leading parameters before a bar or a
    default value. *)
Theorem C72_text_arity : forall str dbl is_str junk l s, (forall w, str w <> PN_NIL) ->
  strings_are_objects is_str -> (forall w, is_str (str w) = true) -> is_str PN_NIL = false ->
  sig_text str false l s -> Forall no_colon l ->
  exists words, sig_is str dbl junk s words /\ sig_arity is_str words = Ok (zlen (params l)) /\ sig_minargs is_str words = Ok (required l).
Proof.
  intros str dbl is_str junk l s N SO SS SN H F. exists (enc l). split; [apply C72_signature_text; assumption|].
  pose proof (sig_ok _ _ SO SS SN _ _ _ H F) as K. split; [apply C38_arity; assumption|]. exact (proj1 (C38_minargs _ _ SO K)).
Qed.

(** ** A case: "x=N, -y|z:=7..." *)
Section Case.
  Context (str dbl : list Z -> Z).
  Definition text : list Z := [120;61;78;44;32;45;121;124;122;58;61;55;46;46;46].
  Definition its : list item := [Param (str [120]) (Typed (PN_NUM 78)); Param (str [121]) (Modified PN_NIL (PN_NUM 45)); Bar; Param (str [122]) (Default (PN_NUM 7)); Dots].
  Lemma tok_here w g : spaces g -> tok w (w ++ g).
  Proof. intros G. exists g. auto. Qed.
  Example text_is : sig_text str false its text.
  Proof.
    assert (P : forall c, path_ident [c] = true -> pname str (str [c]) [c]).
    { intros c C. exists [c]. repeat split; [exact C|]. apply (tok_here [c] []). reflexivity. }
    change text with (([120;61;78;44;32;45;121] ++ [124] ++ [122;58;61;55]) ++ [46;46;46]).
    change its with (([Param (str [120]) (Typed (PN_NUM 78)); Param (str [121]) (Modified PN_NIL (PN_NUM 45))] ++ Bar :: [Param (str [122]) (Default (PN_NUM 7))]) ++ [Dots]).
    apply sig_dots; [|apply (tok_here [46;46;46] []); reflexivity].
    apply lists_one. apply (list_bar _ false _ _ _ false).
    - change [120;61;78;44;32;45;121] with (([120] ++ [61] ++ [78]) ++ [44;32] ++ [45;121]). apply (set_more _ false _ _ _ false).
      + apply arg_typed; [apply P; reflexivity | exists []; split; [constructor | reflexivity] | exists 78; split; [cbn; auto|]; split; [reflexivity|]; apply (tok_here [78] []); reflexivity].
      + apply (tok_here [44] [32]). reflexivity.
      + apply set_one. change [45;121] with ([45] ++ [121]). apply arg_mod; [exists 45; split; [cbn; auto|]; split; reflexivity | apply P; reflexivity].
    - apply (tok_here [124] []). reflexivity.
    - apply set_one. change [122;58;61;55] with ([122] ++ [58;61] ++ [55]).
      apply arg_default; [apply P; reflexivity | exists []; split; [constructor | reflexivity] |].
      exists [55]. split; [apply (tok_here [55] []); reflexivity|]. right. right. right. exists 7. repeat split; unfold two62; lia.
  Qed.
End Case.
Example C72_example str dbl junk : (forall w, str w <> PN_NIL) ->
  sig_is str dbl junk text [str [120]; PN_NUM 78; str [121]; PN_NIL; PN_NUM 45; PN_NUM 124; str [122]; PN_NUM 58; PN_NUM 7; PN_NUM 46].
Proof. intros N. exact (C72_signature_text str dbl junk _ _ N (text_is str)). Qed.
