(** Property C75: the text of a function's signature, and reading it back. *)
From Verif Require Import Base Arr WordModel WordProofs NumModel NumProofs CompileModel PegModel PegProofs SyntaxModel TextSpec SyntaxLit SigModel PropSig SigText SyntaxSig PropParse PropSigText SigStrModel.
From stdpp Require countable.
From Coq Require Import ZifyBool.
Ltac Zify.zify_post_hook ::= Z.div_mod_to_equations.

(** ** Specification: parameter lists that have a text *)
Section Spec.
  Context (str : list Z -> Z).
  (** an integer default that is not taken for a mark: as a C int not 46, 58 or 124 *)
  Definition plain_default (d : Z) : Prop :=
    d = PN_NIL \/ d = PN_TRUE \/ d = PN_FALSE \/
    exists n, 0 <= n < two62 /\ d = PN_NUM n /\ s32 n <> 46 /\ s32 n <> 58 /\ s32 n <> 124.
  Definition good_param (i : item) : Prop :=
    match i with
    | Param n d => (exists w, path_ident w = true /\ n = str w) /\
        match d with
        | Plain => True
        | Typed t => exists c, In c type_letters /\ t = PN_NUM c
        | Default d => plain_default d
        | Modified _ _ => False
        end
    | _ => False
    end.
  Definition good_set (l : list item) : Prop := l <> [] /\ Forall good_param l.
  Inductive good_list : list item -> Prop :=
  | good_one l : good_set l -> good_list l
  | good_bar l m : good_set l -> good_set m -> good_list (l ++ Bar :: m)
  | good_opt m : good_set m -> good_list (Bar :: m).
  Inductive good_lists : list item -> Prop :=
  | goods_one l : good_list l -> good_lists l
  | goods_dot l m : good_list l -> good_lists m -> good_lists (l ++ Dots :: m).
End Spec.

Section Proof.
  Context (str : list Z -> Z) (text : Z -> list Z).
  (** what [text] gives for the values at hand; strings are objects *)
  Record texts : Prop := mkTexts {
    tx_str : forall w, text (str w) = w /\ PN_IS_INT (str w) = false;
    tx_int : forall n, 0 <= n < two62 -> text (PN_NUM n) = sprintf_ld n;
    tx_nil : text PN_NIL = [110; 105; 108];
    tx_true : text PN_TRUE = [116; 114; 117; 101];
    tx_false : text PN_FALSE = [102; 97; 108; 115; 101] }.
  Hypothesis TX : texts.
  Lemma tok_one w : tok w w. Proof. exists []. split; [reflexivity | rewrite app_nil_r; reflexivity]. Qed.
  Lemma tokn_one w : tokn w w. Proof. exists []. split; [constructor | rewrite app_nil_r; reflexivity]. Qed.
  Lemma num_int n : PN_IS_INT (PN_NUM n) = true. Proof. apply PN_NUM_is_int. Qed.
  Lemma int_num n : 0 <= n < two62 -> PN_INT (PN_NUM n) = n.
  Proof. intros H. apply PN_INT_NUM, repb_spec. unfold two62 in *. lia. Qed.
  Lemma letters_ok c : In c type_letters -> 0 <= c < 128 /\ c <> 46 /\ c <> 58 /\ c <> 124 /\ s32 c = c /\ c mod 256 = c /\ PN_INT (PN_NUM c) = c.
  Proof.
    intros C. assert (X : 0 <= c < 128 /\ c <> 46 /\ c <> 58 /\ c <> 124) by (unfold type_letters in C; cbn [In] in C; lia).
    destruct X as (X & X1 & X2 & X3). assert (S1 : s32 c = c) by (unfold s32, two32; lia). assert (S2 : c mod 256 = c) by lia.
    assert (S3 : PN_INT (PN_NUM c) = c) by (apply int_num; unfold two62; lia). tauto.
  Qed.
  (** one parameter *)
  Lemma one_param i : good_param str i -> exists s, arg str false i s /\
    forall r comma, sig_loop text (enc1 i ++ r) comma false = (if comma then [44] else []) ++ s ++ sig_loop text r true false.
  Proof.
    destruct TX as [T1 T2 T3 T4 T5]. destruct i as [n d| |]; cbn [good_param]; try tauto. intros ((w & W & ->) & D). destruct (T1 w) as [Tw Iw].
    assert (P : pname str (str w) w) by (exists w; repeat split; [exact W | apply tok_one]).
    destruct d as [|t|d|t m]; [| | |contradiction].
    - exists w. split; [apply arg_plain, P|]. intros r comma. cbn [enc1 app sig_loop]. rewrite Iw, Tw. reflexivity.
    - destruct D as (c & C & ->). exists (w ++ [61] ++ [c]). split.
      + apply arg_typed; [exact P | apply tokn_one|]. exists c. repeat split; [exact C | apply tok_one].
      + intros r comma. destruct (letters_ok c C) as (_ & A1 & A2 & A3 & A4 & A5 & A6). cbn [enc1 app sig_loop]. rewrite Iw, Tw, num_int, A6, A4, A5.
        replace (c =? 46) with false by lia. replace (c =? 124) with false by lia. replace (c =? 58) with false by lia.
        cbn [app]. rewrite <- app_assoc. reflexivity.
    - assert (E : exists x, default_text str false d x /\ forall r, sig_loop text (d :: r) false true = 61 :: x ++ sig_loop text r true false).
      { destruct D as [-> |[-> |[-> |(n & N & -> & N1 & N2 & N3)]]].
        - exists [110; 105; 108]. split; [exists [110; 105; 108]; split; [apply tok_one | left; auto]|]. intros r. cbn [sig_loop]. rewrite T3. reflexivity.
        - exists [116; 114; 117; 101]. split; [exists [116; 114; 117; 101]; split; [apply tok_one | right; left; auto]|]. intros r. cbn [sig_loop]. rewrite T4. reflexivity.
        - exists [102; 97; 108; 115; 101]. split; [exists [102; 97; 108; 115; 101]; split; [apply tok_one | right; right; left; auto]|]. intros r. cbn [sig_loop]. rewrite T5. reflexivity.
        - exists (sprintf_ld n). split; [exists (sprintf_ld n); split; [apply tok_one | right; right; right; exists n; auto]|]. intros r. cbn [sig_loop].
          rewrite num_int, int_num, T2 by exact N. replace (s32 n =? 46) with false by lia. replace (s32 n =? 124) with false by lia. replace (s32 n =? 58) with false by lia. reflexivity. }
      destruct E as (x & E & F). exists (w ++ [58; 61] ++ x). split.
      + apply arg_default; [exact P | apply tokn_one | exact E].
      + intros r comma. cbn [enc1 app]. cbn [sig_loop]. rewrite Iw, Tw. change (PN_IS_INT (PN_NUM 58)) with true. change (s32 (PN_INT (PN_NUM 58))) with 58.
        change (58 =? 46) with false. change (58 =? 124) with false. change (58 =? 58) with true. cbn iota. specialize (F r). cbn [sig_loop] in F. rewrite F.
        cbn [app]. rewrite <- app_assoc. reflexivity.
  Qed.
  Lemma set_string l : good_set str l -> exists s, arg_set str false l s /\
    forall r comma, sig_loop text (enc l ++ r) comma false = (if comma then [44] else []) ++ s ++ sig_loop text r true false.
  Proof.
    intros (N & F). induction l as [|i l IH]; [congruence|]. inversion F as [|x y G F']; subst. destruct (one_param _ G) as (s & A & B).
    destruct l as [|j l].
    - exists s. split; [apply set_one, A|]. intros r comma. unfold enc. cbn [map concat]. rewrite app_nil_r. apply B.
    - destruct (IH ltac:(discriminate) F') as (s2 & A2 & B2). exists (s ++ [44] ++ s2). split.
      + apply (set_more str false i s [44] false); [exact A | apply tok_one | exact A2].
      + intros r comma. change (enc (i :: j :: l)) with (enc1 i ++ enc (j :: l)). rewrite <- app_assoc, B, B2. repeat rewrite <- app_assoc. reflexivity.
  Qed.
  Lemma bar_string r comma : sig_loop text (PN_NUM 124 :: r) comma false = 124 :: sig_loop text r false false.
  Proof. reflexivity. Qed.
  Lemma dot_string r comma : sig_loop text (PN_NUM 46 :: r) comma false = 46 :: sig_loop text r false false.
  Proof. reflexivity. Qed.
  Lemma enc_cons i l : enc (i :: l) = enc1 i ++ enc l. Proof. reflexivity. Qed.
  Lemma enc_cat a b : enc (a ++ b) = enc a ++ enc b. Proof. unfold enc. rewrite map_app, concat_app. reflexivity. Qed.
  Lemma list_string l : good_list str l -> exists s, arg_list str false l s /\ forall r, sig_loop text (enc l ++ r) false false = s ++ sig_loop text r true false.
  Proof.
    intros [l' G|l' m G1 G2|m G].
    - destruct (set_string _ G) as (s & A & B). exists s. split; [apply list_one, A|]. intros r. apply (B r false).
    - destruct (set_string _ G1) as (s & A & B). destruct (set_string _ G2) as (s2 & A2 & B2). exists (s ++ [124] ++ s2). split.
      + apply (list_bar str false l' s [124] false); [exact A | apply tok_one | exact A2].
      + intros r. rewrite enc_cat, enc_cons, <- app_assoc, (B _ false). cbn [enc1 app]. rewrite bar_string, (B2 _ false). rewrite <- app_assoc. reflexivity.
    - destruct (set_string _ G) as (s2 & A2 & B2). exists ([124] ++ s2). split.
      + apply list_opt; [apply tok_one | exact A2].
      + intros r. rewrite enc_cons. cbn [enc1 app]. rewrite bar_string, (B2 _ false). reflexivity.
  Qed.
  Lemma lists_string l : good_lists str l -> exists s, arg_lists str false l s /\ forall r, sig_loop text (enc l ++ r) false false = s ++ sig_loop text r true false.
  Proof.
    induction 1 as [l G|l m G Gm (s2 & A2 & B2)].
    - destruct (list_string _ G) as (s & A & B). exists s. split; [apply lists_one, A | exact B].
    - destruct (list_string _ G) as (s & A & B). exists (s ++ [46] ++ s2). split.
      + apply (lists_more str false l s [46] false); [exact A | apply tok_one | exact A2].
      + intros r. rewrite enc_cat, enc_cons, <- app_assoc, B. cbn [enc1 app]. rewrite dot_string, B2. rewrite <- app_assoc. reflexivity.
  Qed.
End Proof.

(** The text of such a list is a text of that list, ... *)
Theorem C75_string_is_a_text : forall str text l, texts str text -> good_lists str l ->
  sig_text str false l (sig_string text (Some (enc l))).
Proof.
  intros str text l TX G. destruct (lists_string str text TX l G) as (s & A & B). cbn [sig_string].
  rewrite <- (app_nil_r (enc l)), B. cbn [sig_loop]. rewrite app_nil_r. apply sig_lists, A.
Qed.
(** ... so reading it gives the signature back. *)
Theorem C75_read_back : forall str text dbl junk l, (forall w, str w <> PN_NIL) -> texts str text -> good_lists str l ->
  sig_is str dbl junk (sig_string text (Some (enc l))) (enc l).
Proof. intros str text dbl junk l N TX G. apply C72_signature_text; [exact N|]. apply C75_string_is_a_text; assumption. Qed.
(** A function's text is its signature's within function( ). *)
Theorem C75_closure_string : forall str text name l, texts str text -> good_lists str l ->
  exists s, sig_text str false l s /\
    closure_string text name (Some (enc l)) = [102; 117; 110; 99; 116; 105; 111; 110] ++ match name with Some n => 32 :: n | None => [] end ++ [40] ++ s ++ [41].
Proof. intros str text name l TX G. exists (sig_string text (Some (enc l))). split; [apply C75_string_is_a_text; assumption | reflexivity]. Qed.

(** ** Where it falls short: a modifier, dots at the end, a string or the integer 46 as default *)
Lemma rejected str dbl junk s : fails (Rul r_sig) s -> sig_parses str dbl junk s PSReject.
Proof.
  intros F. destruct (F (s, s)) as (n & be' & H). exists n. intros m M. unfold sig_n. rewrite (PegTerm.run_le _ _ n m _ _ _ _ M H). reflexivity.
Qed.
Ltac reject := apply rejected, (prun_eof 400); vm_compute; reflexivity.
Theorem C75_not_read_back_refuted : forall str text dbl junk, texts str text ->
  let back i := sig_parses str dbl junk (sig_string text (Some (enc i))) PSReject in
  back [Param (str [120]) (Modified PN_NIL (PN_NUM 45))] /\
  back [Param (str [120]) (Modified (PN_NUM 78) (PN_NUM 45))] /\
  back [Param (str [120]) Plain; Dots] /\
  back [Param (str [120]) (Default (str [97; 98]))] /\
  back [Param (str [120]) (Default (PN_NUM 46))].
Proof.
  intros str text dbl junk TX back. subst back. cbv beta. destruct (tx_str _ _ TX [120]) as [A B]. destruct (tx_str _ _ TX [97; 98]) as [A' B'].
  pose proof (tx_nil _ _ TX) as C.
  repeat split.
  - replace (sig_string _ _) with [120; 44; 110; 105; 108; 61; 45]; [reject|]. unfold enc. cbn [map concat enc1 app sig_string sig_loop]. rewrite B, A, C. reflexivity.
  - replace (sig_string _ _) with [120; 61; 78; 61; 45]; [reject|]. unfold enc. cbn [map concat enc1 app sig_string sig_loop]. rewrite B, A. reflexivity.
  - replace (sig_string _ _) with [120; 46]; [reject|]. unfold enc. cbn [map concat enc1 app sig_string sig_loop]. rewrite B, A. reflexivity.
  - replace (sig_string _ _) with [120; 58; 61; 97; 98]; [reject|]. unfold enc. cbn [map concat enc1 app sig_string sig_loop]. rewrite B, A, B', A'. reflexivity.
  - replace (sig_string _ _) with [120; 58; 46]; [reject|]. unfold enc. cbn [map concat enc1 app sig_string sig_loop]. rewrite B, A. reflexivity.
Qed.
(** ** The hypotheses can be met: an injective table of strings *)
Definition w_str (w : list Z) : Z := 16 * Zpos (countable.encode w).
Definition w_text (v : Z) : list Z :=
  if PN_IS_INT v then sprintf_ld (PN_INT v)
  else if v =? PN_NIL then [110; 105; 108] else if v =? PN_TRUE then [116; 114; 117; 101]
  else if v =? PN_FALSE then [102; 97; 108; 115; 101]
  else match countable.decode (Z.to_pos (v / 16)) with Some w => w | None => [] end.
Example C75_texts_met : texts w_str w_text /\ (forall w, w_str w <> PN_NIL).
Proof.
  assert (X : forall p, PN_IS_INT (16 * Zpos p) = false) by reflexivity.
  split; [|intros w; unfold w_str, PN_NIL; lia]. constructor.
  - intros w. unfold w_text, w_str. rewrite X. split; [|reflexivity].
    replace (_ =? PN_NIL) with false by (unfold PN_NIL; lia). replace (_ =? PN_TRUE) with false by (unfold PN_TRUE; lia). replace (_ =? PN_FALSE) with false by (unfold PN_FALSE; lia).
    replace (16 * Zpos (countable.encode w) / 16) with (Zpos (countable.encode w)) by lia.
    change (Z.to_pos (Zpos (countable.encode w))) with (countable.encode w). rewrite countable.decode_encode. reflexivity.
  - intros n N. unfold w_text. rewrite num_int, int_num by exact N. reflexivity.
  - reflexivity.
  - reflexivity.
  - reflexivity.
Qed.
(** ** A case: x=N,y:=7|z *)
Example C75_example str text dbl junk : (forall w, str w <> PN_NIL) -> texts str text ->
  let l := [Param (str [120]) (Typed (PN_NUM 78)); Param (str [121]) (Default (PN_NUM 7)); Bar; Param (str [122]) Plain] in
  good_lists str l /\ sig_string text (Some (enc l)) = [120; 61; 78; 44; 121; 58; 61; 55; 124; 122] /\ sig_is str dbl junk [120; 61; 78; 44; 121; 58; 61; 55; 124; 122] (enc l).
Proof.
  intros N TX l.
  assert (G : good_lists str l).
  { apply goods_one. change l with ([Param (str [120]) (Typed (PN_NUM 78)); Param (str [121]) (Default (PN_NUM 7))] ++ Bar :: [Param (str [122]) Plain]).
    assert (P : forall c, path_ident [c] = true -> exists w, path_ident w = true /\ str [c] = str w) by (intros c C; exists [c]; auto).
    apply good_bar; (split; [discriminate|]).
    - constructor; [|constructor; [|constructor]].
      + split; [apply P; reflexivity|]. exists 78. split; [cbn; auto | reflexivity].
      + split; [apply P; reflexivity|]. right. right. right. exists 7. repeat split; unfold two62; try lia; discriminate.
    - constructor; [|constructor]. split; [apply P; reflexivity | exact Logic.I]. }
  assert (S : sig_string text (Some (enc l)) = [120; 61; 78; 44; 121; 58; 61; 55; 124; 122]).
  { destruct (tx_str _ _ TX [120]) as [A B]. destruct (tx_str _ _ TX [121]) as [A2 B2]. destruct (tx_str _ _ TX [122]) as [A3 B3].
    unfold l, enc. cbn [map concat enc1 app sig_string sig_loop]. rewrite B, A, B2, A2, B3, A3, (tx_int _ _ TX 7) by (unfold two62; lia). reflexivity. }
  split; [exact G|]. split; [exact S|]. rewrite <- S. apply C75_read_back; assumption.
Qed.
