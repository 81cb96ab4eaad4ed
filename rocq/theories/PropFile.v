(** Properties C73 (files), C74 (lines from the standard input, the table Env). *)
From Coq Require Import ZifyBool.
From Verif Require Import Base Arr WordModel WordProofs TableModel PropTable FileModel BytesModel.
From Verif Require Import FileModel.
Ltac Zify.zify_post_hook ::= Z.div_mod_to_equations.

(** ** Specification *)
(** the bytes of file [p], if there is one *)
Definition contents (w : os) (p : list Z) : option (list Z) := option_map (ino w) (names w p).
(** [f] is open for file [p] at position [pos] with access [acc] *)
Definition opened (w : os) (f : file) (p : list Z) (pos acc : Z) (app : bool) : Prop :=
  exists i, names w p = Some i /\ fds w (f_fd f) = Some (mkDesc i pos acc app).
(** a program reads until it gets nil; [ns]: how many bytes it asks for each time,
    [ps]: what it gets *)
Inductive read_to_nil (f : file) : os -> list Z -> list (list Z) -> os -> Prop :=
| rtn_end w n w' : 0 < n < 2147483648 -> file_read w f (PN_NUM n) w' ANil -> read_to_nil f w [n] [] w'
| rtn_more w n w1 p ns ps w' : 0 < n < 2147483648 -> file_read w f (PN_NUM n) w1 (ABytes p) ->
    read_to_nil f w1 ns ps w' -> read_to_nil f w (n :: ns) (p :: ps) w'.
(** a program writes strings, each in one go *)
Inductive write_all (f : file) : os -> list (list Z) -> os -> Prop :=
| wa_nil w : write_all f w [] w
| wa_cons w s w1 l w' : zlen s < 2147483648 -> file_write w f (OStr s) w1 (AInt (zlen s)) -> write_all f w1 l w' -> write_all f w (s :: l) w'.

Lemma s32_small r : 0 <= r < 2147483648 -> s32 r = r.
Proof. intros H. unfold s32, two32. destruct (r mod 4294967296 <? 2147483648) eqn:E; lia. Qed.
Lemma s32_m1 : s32 (-1) = -1. Proof. reflexivity. Qed.
Lemma pn_int n : 0 < n < 2147483648 -> PN_INT (PN_NUM n) = n.
Proof. intros H. apply PN_INT_NUM, repb_spec. unfold two62. lia. Qed.

Lemma skipn_skipn' {A} : forall a b (l : list A), skipn a (skipn b l) = skipn (b + a) l.
Proof. intros a b. induction b as [|b IH]; intros l; [reflexivity|]. destruct l as [|x l]; [destruct a; reflexivity|]. cbn. apply IH. Qed.
(** one read: fails, or gives the next bytes, at least one unless the file ends *)
Lemma read_one w f p pos acc app n w' v : 0 < n < 2147483648 -> 0 <= pos -> opened w f p pos acc app -> file_read w f (PN_NUM n) w' v ->
  (v = AError /\ w' = w) \/
  exists k, 0 <= k <= n /\ acc <> O_WRONLY /\ opened w' f p (pos + k) acc app /\ (forall q, contents w' q = contents w q) /\
    forall c, contents w p = Some c -> (k <= zlen (zdrop pos c)) /\
      ((k = 0 /\ v = ANil /\ zdrop pos c = []) \/ (0 < k /\ v = ABytes (ztake k (zdrop pos c)))).
Proof.
  intros N Q (i & A & B) H. unfold file_read in H. rewrite pn_int in H by exact N. replace (n <=? 0) with false in H by lia.
  destruct H as (r & buf & H & ->). destruct H as [|d k D Acc rest K1 K2 K3].
  - left. auto.
  - right. rewrite B in D. injection D as <-. cbn [d_pos d_ino d_acc d_app] in *. exists k. split; [lia|]. split; [exact Acc|].
    split. { exists i. cbn. rewrite A, Z.eqb_refl. auto. } split; [reflexivity|].
    intros c C. unfold contents in C. rewrite A in C. cbn in C. injection C as <-. fold rest. split; [exact K2|].
    unfold read_answer. rewrite s32_small by lia. replace (k =? -1) with false by lia. replace (k <? 0) with false by lia.
    destruct (k =? 0) eqn:E.
    + left. repeat split; [lia | apply K3; lia].
    + right. split; [lia|]. f_equal. unfold ztake. rewrite firstn_firstn. f_equal. lia.
Qed.
(** Reading until nil, with any requests and any short reads, gives exactly the rest of
    the file: every piece is not empty and not longer than asked for. *)
Theorem C73_read_to_the_end : forall f w ns ps w' p pos acc app c, 0 <= pos -> opened w f p pos acc app -> contents w p = Some c ->
  read_to_nil f w ns ps w' ->
  concat ps = zdrop pos c /\ Forall2 (fun n q => 0 < zlen q <= n) (removelast ns) ps /\ contents w' p = Some c.
Proof.
  intros f w ns ps w' p pos acc app c Q O C R. revert pos Q O C. induction R as [w n w' N H|w n w1 b ns ps w' N H R IH]; intros pos Q O C.
  - destruct (read_one _ _ _ _ _ _ _ _ _ N Q O H) as [[X _]|(k & K & _ & _ & X & Y)]; [discriminate X|].
    destruct (Y c C) as (_ & [(_ & _ & ->)|(_ & X2)]); [|discriminate X2]. repeat split; [constructor | rewrite X; exact C].
  - destruct (read_one _ _ _ _ _ _ _ _ _ N Q O H) as [[X _]|(k & K & _ & O' & X & Y)]; [discriminate X|].
    destruct (Y c C) as (L & [(_ & X2 & _)|(K1 & X2)]); [discriminate X2|]. injection X2 as ->.
    assert (C' : contents w1 p = Some c) by (rewrite X; exact C). destruct (IH (pos + k) ltac:(lia) O' C') as (I1 & I2 & I3).
    split; [|split; [|exact I3]].
    + cbn [concat]. rewrite I1. replace (zdrop (pos + k) c) with (zdrop k (zdrop pos c)); [apply ztake_zdrop|].
      unfold zdrop. rewrite skipn_skipn'. f_equal. lia.
    + destruct ns as [|m ns]; [inversion R|]. cbn [removelast]. constructor; [|exact I2]. rewrite zlen_ztake by lia. lia.
Qed.
(** Nil is answered at the end of the file only. *)
Theorem C73_nil_is_the_end : forall f w n w' p pos acc app c, 0 < n < 2147483648 -> 0 <= pos -> opened w f p pos acc app -> contents w p = Some c ->
  file_read w f (PN_NUM n) w' ANil -> zlen c <= pos.
Proof.
  intros f w n w' p pos acc app c N Q O C H. destruct (read_one _ _ _ _ _ _ _ _ _ N Q O H) as [[X _]|(k & K & _ & _ & X & Y)]; [discriminate X|].
  destruct (Y c C) as (_ & [(_ & _ & E)|(_ & X2)]); [|discriminate X2].
  destruct (Z_le_gt_dec (zlen c) pos) as [|G]; [assumption|]. pose proof (zlen_zdrop pos c ltac:(lia)) as L. rewrite E in L. change (zlen (@nil Z)) with 0 in L. lia.
Qed.
(** Writing a string puts as many of its first bytes as the answer says at the position,
    or at the end of a file opened for appending; no other file changes. *)
Theorem C73_write_string : forall f w s w' k p pos acc app c, 0 <= pos -> zlen s < 2147483648 -> opened w f p pos acc app -> contents w p = Some c ->
  file_write w f (OStr s) w' (AInt k) ->
  let at_ := if app then zlen c else pos in
  acc <> O_RDONLY /\ 0 <= k <= zlen s /\ contents w' p = Some (overwrite c at_ (ztake k s)) /\ opened w' f p (at_ + k) acc app /\
  forall q, names w q <> names w p -> contents w' q = contents w q.
Proof.
  intros f w s w' k p pos acc app c Q L (i & A & B) C H at_. unfold file_write in H. cbn [file_payload] in H. destruct H as (r & H & V).
  unfold contents in *. rewrite A in C. cbn in C. injection C as <-.
  destruct H as [|d k' D Acc K a]; [rewrite s32_m1 in V; discriminate V|]. rewrite B in D. injection D as <-. cbn [d_pos d_ino d_acc d_app] in *.
  rewrite s32_small in V by lia. destruct (k' =? -1) eqn:E; [lia|]. injection V as ->.
  split; [exact Acc|]. split; [exact K|]. cbn [names set_fd set_ino ino]. rewrite A. cbn [option_map]. rewrite Z.eqb_refl. split; [reflexivity|]. split.
  - exists i. cbn. rewrite A, Z.eqb_refl. auto.
  - intros q Nq. destruct (names w q) as [j|] eqn:Ej; [|reflexivity]. cbn. destruct (j =? i) eqn:E2; [|reflexivity].
    exfalso. apply Nq. f_equal. lia.
Qed.
Lemma overwrite_end c b : overwrite c (zlen c) b = c ++ b.
Proof.
  unfold overwrite. rewrite Z.sub_diag. cbn [Z.to_nat repeat app].
  unfold ztake, zdrop. rewrite firstn_all2 by (unfold zlen; lia). rewrite skipn_all2 by (unfold zlen; lia). rewrite app_nil_r. reflexivity.
Qed.
Lemma ztake_all s : ztake (zlen s) s = s.
Proof. unfold ztake. apply firstn_all2. unfold zlen. lia. Qed.
Lemma write_seq f w l w' : write_all f w l w' -> forall p acc app c, opened w f p (zlen c) acc app -> contents w p = Some c ->
  contents w' p = Some (c ++ concat l) /\ (exists pos, opened w' f p pos acc app) /\ names w' = names w.
Proof.
  induction 1 as [w|w s w1 l w' L H R IH]; intros p acc app c O C.
  - cbn [concat]. rewrite app_nil_r. eauto.
  - destruct (C73_write_string _ _ _ _ _ _ _ _ _ _ (zlen_nonneg c) L O C H) as (_ & _ & C' & O' & _).
    replace (if app then zlen c else zlen c) with (zlen c) in * by (destruct app; reflexivity).
    rewrite overwrite_end, ztake_all in C'. rewrite <- zlen_app in O'. destruct (IH _ _ _ _ O' C') as (I1 & I2 & I3).
    cbn [concat]. rewrite app_assoc. repeat split; try assumption. rewrite I3.
    unfold file_write in H. cbn [file_payload] in H. destruct H as (r & H & _). destruct H; reflexivity.
Qed.
Lemma close_loop_keeps fd w w' : close_loop fd w w' -> ino w' = ino w /\ names w' = names w /\ forall k, k <> fd -> fds w' k = fds w k.
Proof.
  assert (ST : forall w w' r b, sys_close w fd w' r b -> ino w' = ino w /\ names w' = names w /\ forall k, k <> fd -> fds w' k = fds w k).
  { intros u u' r b H.
    assert (G : ino (set_fd u fd None) = ino u /\ names (set_fd u fd None) = names u /\ forall k, k <> fd -> fds (set_fd u fd None) k = fds u k).
    { repeat split. intros k K. cbn. destruct (k =? fd) eqn:E; [lia | reflexivity]. }
    destruct H as [d D|D|d D|d u' D [-> | ->]]; auto. }
  induction 1 as [u u' r H|u u1 u' H R IH]; [eapply ST, H|]. destruct (ST _ _ _ _ H) as (A & B & C). destruct IH as (A' & B' & C').
  rewrite A', B', A, B. repeat split. intros k K. rewrite C', C by exact K. reflexivity.
Qed.
(** Closing, however often it is interrupted, makes the file object a closed one, frees
    the descriptor, and changes no file and no other descriptor. *)
Theorem C73_close : forall w f w' f' v, file_close w f w' f' v ->
  v = ANil /\ f_fd f' = -1 /\ fds w' (f_fd f) = None /\ (forall p, contents w' p = contents w p) /\ forall k, k <> f_fd f -> fds w' k = fds w k.
Proof.
  intros w f w' f' v (L & -> & ->). destruct (close_loop_keeps _ _ _ L) as (A & B & C). split; [reflexivity|]. split; [reflexivity|]. split.
  - clear A B C. induction L as [u u' r H|u u1 u' H R IH]; [|exact IH]. inversion H; subst; cbn; try rewrite Z.eqb_refl; auto.
  - split; [|exact C]. intros p. unfold contents. rewrite A, B. reflexivity.
Qed.
(** The constructor: six modes; a file object for the file, at its start. *)
Theorem C73_open : forall w p m w' f, file_new w p m w' (AFile f) ->
  In m [str_r; str_rp; str_w; str_wp; str_a; str_ap] /\
  opened w' f p 0 (if existsb (same_name m) [str_rp; str_wp; str_ap] then O_RDWR else if same_name m str_r then O_RDONLY else O_WRONLY)
                  (existsb (same_name m) [str_a; str_ap]) /\
  (if existsb (same_name m) [str_w; str_wp] then contents w' p = Some []
   else match contents w p with
        | Some c => contents w' p = Some c
        | None => existsb (same_name m) [str_a; str_ap] = true /\ contents w' p = Some []
        end) /\
  forall q, q <> p -> (forall i, names w p = Some i -> names w q <> Some i) -> contents w' q = contents w q.
Proof.
  intros w p m w' f H. unfold file_new in H. destruct (file_mode m) as [fl|] eqn:M; [|destruct H as [_ H]; discriminate H].
  destruct H as (fd & H & V). destruct (fd =? -1) eqn:F; [discriminate V|]. injection V as ->.
  assert (SN : forall a b, same_name a b = true <-> a = b).
  { intros a b. unfold same_name. destruct (list_eq_dec Z.eq_dec a b); split; congruence. }
  assert (X : In m [str_r; str_rp; str_w; str_wp; str_a; str_ap] /\
     fl mod 4 = (if existsb (same_name m) [str_rp; str_wp; str_ap] then O_RDWR else if same_name m str_r then O_RDONLY else O_WRONLY) /\
     flag fl O_APPEND = existsb (same_name m) [str_a; str_ap] /\ flag fl O_TRUNC = existsb (same_name m) [str_w; str_wp] /\
     flag fl O_CREAT = existsb (same_name m) [str_w; str_wp; str_a; str_ap]).
  { unfold file_mode in M.
    repeat match type of M with context [if same_name m ?x then _ else _] =>
      let E := fresh in destruct (same_name m x) eqn:E;
      [apply SN in E; subst m; injection M as <-; split; [cbn [In]; tauto | vm_compute; auto] | clear E] end.
    discriminate M. }
  destruct X as (X1 & <- & X3 & X4 & X5). split; [exact X1|]. rewrite <- X3, <- X4. clear X1 SN.
  inversion H as [E|fd' i w1 B D Fo E1 E2]; subst; [discriminate F|]. unfold contents. cbn [names ino set_fd].
  destruct Fo as [(A & ->)|(A & K & Fr & Fr' & ->)].
  - rewrite A. split; [|split].
    + exists i. cbn. destruct (flag fl O_TRUNC); cbn [names set_ino]; rewrite A, Z.eqb_refl; auto.
    + destruct (flag fl O_TRUNC); cbn [names set_ino]; rewrite A; cbn [option_map ino set_ino]; rewrite ?Z.eqb_refl; reflexivity.
    + intros q Q1 Q2. specialize (Q2 i eq_refl). destruct (flag fl O_TRUNC); [|reflexivity]. cbn [names set_ino ino].
      destruct (names w q) as [j|]; [|reflexivity]. cbn. destruct (j =? i) eqn:E; [|reflexivity]. exfalso. apply Q2. f_equal. lia.
  - assert (SP : same_name p p = true) by (unfold same_name; destruct (list_eq_dec Z.eq_dec p p); congruence).
    rewrite A. cbn [option_map]. split; [|split].
    + exists i. cbn. destruct (flag fl O_TRUNC); cbn [names set_ino]; rewrite SP, Z.eqb_refl; auto.
    + rewrite X5 in K. destruct (flag fl O_TRUNC) eqn:T; cbn [names set_ino ino]; rewrite SP; cbn [option_map]; rewrite Z.eqb_refl; [reflexivity|].
      split; [|reflexivity]. rewrite X3. cbn [existsb] in *. rewrite !orb_false_r in *.
      destruct (same_name m str_w); [discriminate X4|]. destruct (same_name m str_wp); [discriminate X4|]. exact K.
    + intros q Q1 _. assert (SQ : same_name q p = false) by (unfold same_name; destruct (list_eq_dec Z.eq_dec q p); congruence).
      destruct (flag fl O_TRUNC); cbn [names set_ino ino]; rewrite SQ; specialize (Fr q);
        (destruct (names w q) as [j|]; [|reflexivity]); cbn; destruct (j =? i) eqn:E; try reflexivity; exfalso; apply Fr; f_equal; lia.
Qed.
(** Any other mode: nil, and no file is touched. *)
Theorem C73_bad_mode : forall w p m w' v, ~ In m [str_r; str_rp; str_w; str_wp; str_a; str_ap] -> file_new w p m w' v -> v = ANil /\ w' = w.
Proof.
  intros w p m w' v N H. unfold file_new in H. destruct (file_mode m) as [fl|] eqn:M; [|tauto].
  exfalso. apply N. unfold file_mode in M.
  assert (SN : forall a b, same_name a b = true -> a = b) by (intros a b; unfold same_name; destruct (list_eq_dec Z.eq_dec a b); congruence).
  repeat match type of M with context [if same_name m ?x then _ else _] =>
      let E := fresh in destruct (same_name m x) eqn:E; [apply SN in E; subst m; cbn [In]; tauto | clear E] end.
  discriminate M.
Qed.
(** What is written is read back: a file made with mode "w", strings written, closed,
    opened with mode "r" and read until nil. *)
Theorem C73_written_is_read_back : forall w p w1 f l w2 w3 f' v w4 g ns ps w5,
  file_new w p str_w w1 (AFile f) -> write_all f w1 l w2 -> file_close w2 f w3 f' v -> file_new w3 p str_r w4 (AFile g) ->
  read_to_nil g w4 ns ps w5 -> concat ps = concat l.
Proof.
  intros w p w1 f l w2 w3 f' v w4 g ns ps w5 A B C D E.
  destruct (C73_open _ _ _ _ _ A) as (_ & O & K & _). change (existsb (same_name str_w) [str_w; str_wp]) with true in K. cbn iota in K.
  destruct (write_seq _ _ _ _ B _ _ _ [] O K) as (K2 & _ & _). cbn [app] in K2.
  destruct (C73_close _ _ _ _ _ C) as (_ & _ & _ & K3 & _). rewrite <- K3 in K2.
  destruct (C73_open _ _ _ _ _ D) as (_ & O4 & K4 & _). change (existsb (same_name str_r) [str_w; str_wp]) with false in K4. cbn iota in K4. rewrite K2 in K4.
  destruct (C73_read_to_the_end _ _ _ _ _ _ _ _ _ _ (Z.le_refl 0) O4 K4 E) as (R & _). exact R.
Qed.
(** Opened for appending: what is written comes after what was there. *)
Theorem C73_append : forall w p c w1 f s w2, contents w p = Some c -> file_new w p str_a w1 (AFile f) -> zlen s < 2147483648 ->
  file_write w1 f (OStr s) w2 (AInt (zlen s)) -> contents w2 p = Some (c ++ s).
Proof.
  intros w p c w1 f s w2 C A L H. destruct (C73_open _ _ _ _ _ A) as (_ & O & K & _).
  change (existsb (same_name str_a) [str_w; str_wp]) with false in K. cbn iota in K. rewrite C in K.
  destruct (C73_write_string _ _ _ _ _ _ _ _ _ _ (Z.le_refl 0) L O K H) as (_ & _ & C' & _).
  change (existsb (same_name str_a) [str_a; str_ap]) with true in C'. cbn iota in C'. rewrite overwrite_end, ztake_all in C'. exact C'.
Qed.
(** An integer n is not written as n but as 4 n + 3. *)
Theorem C73_integer_bytes_refuted : forall n,
  file_payload (OInt (PN_NUM n)) = PBytes (le 8 (u64 (4 * n + 3))).
Proof.
  intros n. cbn [file_payload]. do 2 f_equal. rewrite (PN_NUM_eq n). rewrite PN_NUM_eq.
  unfold u64, two64. lia.
Qed.
(** A boolean is one byte, 1 for true and 0 for false; a double is its eight bytes, lowest first. *)
Theorem C73_boolean_and_double_bytes : forall w f w' k c p pos acc app b, 0 <= pos -> opened w f p pos acc app -> contents w p = Some c ->
  (file_write w f (OBool b) w' (AInt k) -> 0 <= k <= 1 /\ contents w' p = Some (overwrite c (if app then zlen c else pos) (ztake k [if b then 1 else 0]))) /\
  (forall bits, file_write w f (ODbl bits) w' (AInt k) -> 0 <= k <= 8 /\ contents w' p = Some (overwrite c (if app then zlen c else pos) (ztake k (le 8 bits)))).
Proof.
  intros w f w' k c p pos acc app b Q O C. split.
  - intros H. assert (H' : file_write w f (OStr [if b then 1 else 0]) w' (AInt k)) by exact H.
    destruct (C73_write_string f w [if b then 1 else 0] w' k p pos acc app c Q ltac:(destruct b; reflexivity) O C H') as (_ & K & R & _). split; [|exact R].
    change (zlen [if b then 1 else 0]) with 1 in K. exact K.
  - intros bits H. assert (H' : file_write w f (OStr (le 8 bits)) w' (AInt k)) by exact H.
    destruct (C73_write_string f w (le 8 bits) w' k p pos acc app c Q ltac:(reflexivity) O C H') as (_ & K & R & _). split; [exact K|exact R].
Qed.
(** Printing to a file writes the value's text as writing it as a string does, and answers
    the empty string; a failure is answered as by writing. *)
Theorem C73_print : forall w f text w' v, file_print w f text w' v <->
  (exists k, file_write w f (OStr text) w' (AInt k) /\ v = AEmpty) \/ ((forall k, v <> AInt k) /\ file_write w f (OStr text) w' v).
Proof.
  intros w f text w' v. unfold file_print. split.
  - intros (v1 & H & ->). destruct v1 as [| |k| | | | | ]; try (right; split; [congruence | exact H]). left. eauto.
  - intros [(k & H & ->)|(N & H)]; [exists (AInt k); auto|]. exists v. split; [exact H|]. destruct v; try reflexivity. exfalso. eapply N; reflexivity.
Qed.
(** A fresh byte buffer (BytesModel: the smallest 32 k + 16 bytes that hold it and a
    final NUL) of [len] bytes: 2 len + 1 bytes are written, the bytes, the NUL and
    what follows it in memory, beyond the buffer for most lengths. *)
Theorem C73_buffer_bytes_refuted : forall len mem, 0 <= len < 2147483648 -> zlen mem = BYTES_ALIGN (len + 1) ->
  file_payload (OBytes len mem) =
    if (len <? 8) || (16 <=? len) && (len <? 24) then PBytes (ztake (2 * len + 1) mem) else PUndef.
Proof.
  intros len mem H E. cbn [file_payload]. rewrite PN_NUM_eq, E.
  assert (A : (2 * len + 1) mod two64 = 2 * len + 1) by (unfold two64; lia). rewrite A.
  assert (B : BYTES_ALIGN (len + 1) = ((len + 16) / 32 + 1) * 32 - 16).
  { unfold BYTES_ALIGN, PN_ALIGN, u64, two64. lia. }
  rewrite B. destruct ((len <? 8) || (16 <=? len) && (len <? 24)) eqn:K; destruct (2 * len + 1 <=? _) eqn:L; try reflexivity; lia.
Qed.

(** ** A case: every hypothesis above is met by a real run *)
Definition os0 : os := mkOs (fun _ => []) (fun _ => None) (fun _ => None).
Definition fpath : list Z := [102].
Lemma fds_case w fd d : fds (set_fd w fd (Some d)) fd = Some d.
Proof. cbn. rewrite Z.eqb_refl. reflexivity. Qed.
Lemma read_step w f n k d b : 0 < n < 2147483648 -> fds w (f_fd f) = Some d -> d_acc d <> O_WRONLY -> 0 <= k <= n ->
  k <= zlen (zdrop (d_pos d) (ino w (d_ino d))) -> (k = 0 -> zdrop (d_pos d) (ino w (d_ino d)) = []) ->
  b = read_answer (s32 k) (ztake k (zdrop (d_pos d) (ino w (d_ino d)))) ->
  file_read w f (PN_NUM n) (set_fd w (f_fd f) (Some (mkDesc (d_ino d) (d_pos d + k) (d_acc d) (d_app d)))) b.
Proof.
  intros N D A K L E ->. unfold file_read. rewrite pn_int by exact N. replace (n <=? 0) with false by lia.
  exists k, (ztake k (zdrop (d_pos d) (ino w (d_ino d)))). split; [|reflexivity]. apply read_gives; assumption.
Qed.
Example C73_example : exists w1 f w2 w3 f' v w4 g w5,
  file_new os0 fpath str_w w1 (AFile f) /\ write_all f w1 [[104; 101]; [121]] w2 /\ file_close w2 f w3 f' v /\
  file_new w3 fpath str_r w4 (AFile g) /\ read_to_nil g w4 [5; 5; 5] [[104]; [101; 121]] w5.
Proof.
  do 9 eexists. split; [|split; [|split; [|split]]].
  - exists 3. split; [|reflexivity]. apply (open_gives os0 fpath _ 3 9); [lia | reflexivity|]. right. repeat split; intros; discriminate.
  - eapply wa_cons; [reflexivity | exists 2; split; [eapply (write_does _ _ _ _ 2); [reflexivity | discriminate | vm_compute; split; discriminate] | reflexivity]|].
    eapply wa_cons; [reflexivity | exists 1; split; [eapply (write_does _ _ _ _ 1); [reflexivity | discriminate | vm_compute; split; discriminate] | reflexivity]|]. apply wa_nil.
  - split; [|split; reflexivity]. eapply close_again; [eapply close_intr; [reflexivity | left; reflexivity]|]. eapply close_done, close_ok. reflexivity.
  - exists 4. split; [|reflexivity]. eapply (open_gives _ _ _ 4 9); [lia | reflexivity|]. left. split; reflexivity.
  - eapply rtn_more; [lia | eapply (read_step _ _ _ 1); [lia | reflexivity | discriminate | lia | vm_compute; discriminate | discriminate | reflexivity]|].
    eapply rtn_more; [lia | eapply (read_step _ _ _ 2); [lia | reflexivity | discriminate | lia | vm_compute; discriminate | discriminate | reflexivity]|].
    eapply rtn_end; [lia | eapply (read_step _ _ _ 0); [lia | reflexivity | discriminate | lia | vm_compute; discriminate | reflexivity | reflexivity]].
Qed.

(** ** C74: lines from the standard input, and Env *)
(** a program calls the global read until it answers nil *)
Inductive reads : list Z -> list (list Z) -> Prop :=
| reads_end inp r : lobby_read inp = (None, r) -> reads inp []
| reads_more inp l r ls : lobby_read inp = (Some l, r) -> reads r ls -> reads inp (l :: ls).
Lemma to_nul_id l : ~ In 0 l -> to_nul l = l.
Proof.
  induction l as [|c l IH]; intros H; [reflexivity|]. cbn in *. destruct (c =? 0) eqn:E; [exfalso; apply H; left; lia|].
  f_equal. apply IH. tauto.
Qed.
Lemma fgets_split : forall n inp l r, fgets_take n inp = (l, r) -> inp = l ++ r /\ (length l <= n)%nat /\
  (r = [] \/ (length l = n) \/ exists b, l = b ++ [10]) /\ (forall b c, l = b ++ [c] -> ~ In 10 b) /\ (inp <> [] -> n <> O -> l <> []).
Proof.
  induction n as [|n IH]; intros inp l r H.
  - cbn in H. injection H as <- <-. repeat split; auto; try (intros b c E; destruct b; discriminate E); congruence.
  - destruct inp as [|c inp]; cbn in H.
    + injection H as <- <-. repeat split; auto; try (intros b c E; destruct b; discriminate E); try (cbn; lia); congruence.
    + destruct (c =? 10) eqn:E.
      * injection H as <- <-. split; [reflexivity|]. split; [cbn; lia|]. split; [right; right; exists []; cbn; f_equal; lia|]. split; [|discriminate].
        intros b d Q. destruct b as [|x b]; [cbn; tauto|]. destruct b; discriminate Q.
      * destruct (fgets_take n inp) as [l' r'] eqn:F. injection H as <- <-. destruct (IH _ _ _ F) as (A & B & C & D & _). split; [cbn; congruence|].
        split; [cbn; lia|]. split; [|split; [|discriminate]].
        { destruct C as [C|[C|(b & C)]]; [auto | right; left; cbn; congruence | right; right; exists (c :: b); cbn; congruence]. }
        { intros b d Q. destruct b as [|x b]; [cbn; tauto|]. cbn in Q. injection Q as <- Q. intros [X|X]; [lia|]. exact (D _ _ Q X). }
Qed.
Definition take_in (n : nat) (inp : list Z) : forall x, In x (fst (fgets_take n inp)) -> In x inp.
Proof. intros x. destruct (fgets_take n inp) as [l r] eqn:F. destruct (fgets_split _ _ _ _ F) as (-> & _). intros H. apply in_or_app. auto. Qed.
(** Reading terminates, and for an input without NULs the pieces are the input: none is
    longer than 1023 characters, a piece has at most one line feed, at its end, and one
    that has none is the last one or has exactly 1023 characters. *)
Theorem C74_lines : forall inp, ~ In 0 inp -> exists ls, reads inp ls /\ concat ls = inp /\
  Forall (fun l => 0 < zlen l <= 1023 /\ forall b c, l = b ++ [c] -> ~ In 10 b) ls /\
  forall pre l post, ls = pre ++ l :: post -> post <> [] -> zlen l = 1023 \/ exists b, l = b ++ [10].
Proof.
  assert (M : forall k inp, (length inp <= k)%nat -> ~ In 0 inp -> exists ls, reads inp ls /\ concat ls = inp /\
    Forall (fun l => 0 < zlen l <= 1023 /\ forall b c, l = b ++ [c] -> ~ In 10 b) ls /\
    (forall pre l post, ls = pre ++ l :: post -> post <> [] -> zlen l = 1023 \/ exists b, l = b ++ [10])).
  { induction k as [|k IH]; intros inp L Nz.
    - destruct inp; [|cbn in L; lia]. exists []. split; [eapply reads_end; reflexivity|]. repeat split; [constructor|].
      intros pre l post E. destruct pre; discriminate E.
    - destruct inp as [|c inp].
      + exists []. split; [eapply reads_end; reflexivity|]. repeat split; [constructor|]. intros pre l post E. destruct pre; discriminate E.
      + destruct (fgets_take 1023 (c :: inp)) as [l r] eqn:F. pose proof (fgets_split _ _ _ _ F) as (A & B & C & D & E).
        specialize (E ltac:(discriminate) ltac:(discriminate)).
        assert (Z1 : (0 < length l)%nat) by (destruct l; [congruence | cbn; lia]).
        assert (Lr : (length r <= k)%nat). { apply (f_equal (@length Z)) in A. rewrite app_length in A. cbn [length] in *. lia. }
        assert (Nl : ~ In 0 l /\ ~ In 0 r). { rewrite A in Nz. rewrite in_app_iff in Nz. tauto. }
        destruct (IH r Lr ltac:(tauto)) as (ls & R & X1 & X2 & X3). exists (l :: ls). split; [|split; [|split]].
        * eapply reads_more; [|exact R]. unfold lobby_read, fgets. change (Z.to_nat (1024 - 1)) with 1023%nat. rewrite F. cbn. rewrite to_nul_id by tauto. reflexivity.
        * cbn [concat]. rewrite X1. symmetry. exact A.
        * constructor; [|exact X2]. split; [unfold zlen; lia | exact D].
        * intros pre m post Q P. destruct pre as [|x pre]; cbn in Q; injection Q as Q1 Q2; [|eapply X3; eassumption]. subst m post.
          destruct C as [C|[C|C]]; [|left; unfold zlen; lia | auto]. exfalso. subst r. apply P. inversion R; [reflexivity|]. discriminate. }
  intros inp H. exact (M (length inp) inp (Nat.le_refl _) H).
Qed.
(** The answers are determined by the input. *)
Theorem C74_one_reading : forall inp a b, reads inp a -> reads inp b -> a = b.
Proof.
  intros inp a b A. revert b. induction A as [inp r E|inp l r ls E R IH]; intros b B; inversion B as [i r' E'|i l' r' ls' E' R']; subst; rewrite E in E'; try congruence.
  injection E' as <- <-. f_equal. apply IH, R'.
Qed.
(** What follows a NUL in a line is lost. *)
Theorem C74_nul_refuted : reads [97; 0; 98; 10] [[97]].
Proof. eapply reads_more; [reflexivity|]. eapply reads_end. reflexivity. Qed.

(** the value of [k] in a list of definitions: the last one counts *)
Fixpoint last_def (k : list Z) (l : list (list Z * list Z)) : option (list Z) :=
  match l with
  | [] => None
  | (n, v) :: l => match last_def k l with Some x => Some x | None => if list_eq_dec Z.eq_dec n k then Some v else None end
  end.
Lemma spec_puts str (SI : forall a b, str a = str b -> a = b) k : forall (l : list (list Z * list Z)) m,
  exists m' rs, spec_run (map (fun e => Put (str (fst e)) (str (snd e))) l) m = (m', rs) /\ length rs = length l /\
    find_key (str k) m' = match last_def k l with Some v => Some (str v) | None => find_key (str k) m end.
Proof.
  induction l as [|[n v] l IH]; intros m.
  - exists m, []. auto.
  - cbn [map spec_run spec_step fst snd]. destruct (IH ((str n, str v) :: drop_key (str n) m)) as (m' & rs & -> & A & B).
    exists m', (None :: rs). split; [reflexivity|]. split; [cbn; congruence|]. rewrite B. cbn [last_def]. destruct (last_def k l); [reflexivity|].
    cbn [find_key fst snd]. rewrite find_drop. destruct (list_eq_dec Z.eq_dec n k) as [->|Nk].
    + rewrite Z.eqb_refl. reflexivity.
    + assert (str n <> str k) by (intros E; apply Nk, SI, E). replace (str n =? str k) with false by lia. replace (str k =? str n) with false by lia. reflexivity.
Qed.
Lemma spec_run_app h h' : forall m, spec_run (h ++ h') m = (fst (spec_run h' (fst (spec_run h m))), snd (spec_run h m) ++ snd (spec_run h' (fst (spec_run h m)))).
Proof.
  induction h as [|o h IH]; intros m.
  - cbn. destruct (spec_run h' m). reflexivity.
  - cbn [app spec_run]. destruct (spec_step o m) as [m' r]. rewrite IH. destruct (spec_run h m') as [m'' rs]. reflexivity.
Qed.
(** The table Env has, for every name defined in the environment, its last value, and
    nil for every other name.  ([str]: the string objects, one for each text, C26.) *)
Theorem C74_env : forall str uniq js env l k, (forall a b, str a = str b -> a = b) -> zlen l <= 16777216 -> env_puts env = Some l ->
  exists t rs, impl_run uniq js (map (fun e => Put (str (fst e)) (str (snd e))) l ++ [At (str k)]) table_empty =
    Ok (t, rs ++ [Some (match last_def k l with Some v => str v | None => PN_NIL end)]) /\ length rs = length l.
Proof.
  intros str uniq js env l k SI L _. destruct (C19_table_is_a_finite_map uniq js (map (fun e => Put (str (fst e)) (str (snd e))) l ++ [At (str k)])) as (t & E).
  - unfold puts. rewrite filter_app. cbn [filter]. rewrite app_nil_r. unfold zlen in *. etransitivity; [|exact L].
    apply Nat2Z.inj_le. rewrite <- (map_length (fun e => Put (str (fst e)) (str (snd e))) l). clear. induction (map _ l) as [|o q IH]; [cbn; lia|]. cbn. destruct o; cbn; lia.
  - destruct (spec_puts str SI k l []) as (m' & rs & A & B & C). exists t, rs. split; [|exact B]. rewrite E, spec_run_app, A.
    cbn [fst snd spec_run spec_step]. rewrite C. cbn [find_key]. destruct (last_def k l); reflexivity.
Qed.
(** Each definition NAME=value gives NAME and value, the value may contain '='; one
    without '=' makes the loop run past its end. *)
Theorem C74_env_entries : forall env l, env_puts env = Some l ->
  Forall2 (fun e kv => e = fst kv ++ 61 :: snd kv /\ ~ In 61 (fst kv)) env l.
Proof.
  assert (S1 : forall e k v, split_env e = Some (k, v) -> e = k ++ 61 :: v /\ ~ In 61 k).
  { induction e as [|c e IH]; intros k v H; [discriminate H|]. cbn in H. destruct (c =? 61) eqn:E.
    - injection H as <- <-. split; [cbn; f_equal; lia | cbn; tauto].
    - destruct (split_env e) as [[k' v']|]; [|discriminate H]. injection H as <- <-. destruct (IH _ _ eq_refl) as [-> N]. split; [reflexivity|]. intros [X|X]; [lia | exact (N X)]. }
  induction env as [|e env IH]; intros l H; cbn in H; [injection H as <-; constructor|].
  destruct (split_env e) as [[k v]|] eqn:E; [|discriminate H]. destruct (env_puts env) as [l'|]; [|discriminate H]. injection H as <-.
  constructor; [exact (S1 _ _ _ E) | auto].
Qed.
Theorem C74_env_without_equals_refuted : forall e, ~ In 61 e -> forall pre post, env_puts (pre ++ e :: post) = None.
Proof.
  intros e N pre post. induction pre as [|x pre IH]; cbn.
  - assert (S : split_env e = None). { induction e as [|c e IH]; [reflexivity|]. cbn in *. destruct (c =? 61) eqn:E; [exfalso; apply N; left; lia|]. rewrite IH by tauto. reflexivity. }
    rewrite S. reflexivity.
  - rewrite IH. destruct (split_env x); reflexivity.
Qed.
Example C74_example : env_puts [[65; 61; 98]; [67; 61; 61]; [65; 61]] = Some [([65], [98]); ([67], [61]); ([65], [])] /\
  last_def [65] [([65], [98]); ([67], [61]); ([65], [])] = Some [] /\ reads [97; 10; 98] [[97; 10]; [98]].
Proof. split; [reflexivity|]. split; [reflexivity|]. eapply reads_more; [reflexivity|]. eapply reads_more; [reflexivity|]. eapply reads_end. reflexivity. Qed.
