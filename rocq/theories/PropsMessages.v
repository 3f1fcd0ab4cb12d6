(** C74: what the printed text of an error tells. *)
Require Import Coq.Lists.List Coq.NArith.NArith Coq.ZArith.ZArith Coq.Bool.Bool Coq.micromega.Lia Coq.Strings.String.
Require Import Coq.Numbers.DecimalString Coq.Numbers.DecimalN.
Require Import Coq.Init.Byte.
Require Import Verif.Base Verif.Types Verif.Io Verif.Parser Verif.Writer Verif.TreeIo Verif.Loaders Verif.ErrView Verif.Messages Verif.PropsErrView.
Require Import Verif.Zlib Verif.Samples.
Import ListNotations.

(** ** Specification *)
(** The number that a sequence of decimal digits stands for. *)
Definition digit (b : byte) : Prop := (48 <= Byte.to_N b <= 57)%N.
Definition number (l : list byte) : N := fold_left (fun a b => (10 * a + (Byte.to_N b - 48))%N) l 0%N.
(** The usual way to write a number: digits only, at least one, no leading zero. *)
Definition decimal (l : list byte) (n : N) : Prop :=
  number l = n /\ Forall digit l /\ l <> [] /\ (forall r, l = "0"%byte :: r -> r = []).

(** One text ends with another. *)
Definition ends_with (l m : list byte) : Prop := exists p, l = p ++ m.
(** One text occurs in another. *)
Definition occurs_in (m l : list byte) : Prop := exists p q, l = p ++ m ++ q.

(** The two errors that print their source in its [{:?}] form. *)
Definition debug_printed (d : dynerr) : Prop :=
  match d with DData (BrokenCompression _) | DData (InvalidNodeNameEncoding _) => True | _ => False end.
(** Errors that are not the crate's print as different texts if they are different. *)
Record telling (texts : Texts) : Prop := mkTelling {
  tell_io : forall a b, io_display a = io_display b -> a = b;
  tell_io_debug : forall a b, io_debug a = io_debug b -> a = b;
  tell_utf8 : forall a b, utf8_debug a = utf8_debug b -> a = b
}.
(** If the error is about an attribute of a wrong type, the text for what was found contains no
    comma; what was expected may be any text. *)
Definition plain (e : econtainer) : Prop :=
  match e with EData (UnexpectedAttribute _ got) => ~ In ","%byte got | _ => True end.
(** No I/O error prints as the text for a missing magic. *)
Definition not_magic (texts : Texts) : Prop := forall e, io_display e <> str "FBX magic binary is not detected".

(** ** Numbers *)
Definition ddigits (d : Decimal.uint) : list byte := str (NilEmpty.string_of_uint d).
Lemma fold_acc : forall d p, fold_left (fun a b => (10 * a + (Byte.to_N b - 48))%N) (ddigits d) (N.pos p) = N.pos (Pos.of_uint_acc d p).
Proof.
  induction d; intros p; [reflexivity|..];
    (match goal with |- fold_left _ (ddigits (?C ?u)) _ = _ =>
       change (ddigits (C u)) with (match ddigits (C Decimal.Nil) with b :: _ => b | [] => "0"%byte end :: ddigits u) end;
     cbn [fold_left]; cbn [Pos.of_uint_acc];
     match goal with |- fold_left _ _ ?x = N.pos (Pos.of_uint_acc _ ?q) => replace x with (N.pos q); [auto|cbn -[N.mul N.add N.sub Pos.mul Pos.add]] end;
     lia).
Qed.
Lemma fold_of : forall d, number (ddigits d) = N.of_uint d.
Proof.
  unfold number. induction d; [reflexivity|assumption|..];
    (match goal with |- fold_left _ (ddigits (?C ?u)) _ = _ =>
       change (ddigits (C u)) with (match ddigits (C Decimal.Nil) with b :: _ => b | [] => "0"%byte end :: ddigits u) end;
     exact (fold_acc _ _)).
Qed.
Lemma ddigits_digit : forall d, Forall digit (ddigits d).
Proof. induction d; [constructor|..]; (constructor; [unfold digit; vm_compute; split; discriminate|assumption]). Qed.
(** Numbers are printed the usual way. *)
Theorem C74_numbers : forall n, decimal (dec n) n.
Proof.
  intros n. split; [|split; [apply ddigits_digit|]].
  - change (number (ddigits (N.to_uint n)) = n). rewrite fold_of. apply DecimalN.Unsigned.of_to.
  - assert (U : Decimal.unorm (N.to_uint n) = N.to_uint n).
    { rewrite <- (DecimalN.Unsigned.to_of (N.to_uint n)). now rewrite DecimalN.Unsigned.of_to. }
    change (dec n) with (ddigits (N.to_uint n)). split.
    + intros E. destruct (N.to_uint n) as [|d|d|d|d|d|d|d|d|d|d]; [|discriminate E..]. vm_compute in U. discriminate.
    + intros r E. destruct (N.to_uint n) as [|d|d|d|d|d|d|d|d|d|d]; try discriminate E.
      injection E as <-. change (ddigits d = []). unfold Decimal.unorm in U. cbn in U.
      assert (X : forall u, Decimal.nzhead u <> Decimal.D0 d).
      { clear. induction u; cbn; try discriminate; exact IHu. }
      destruct (Decimal.nzhead d) eqn:Z; [injection U as <-; reflexivity|exfalso; apply (X d); rewrite Z; exact U|..]; discriminate.
Qed.
Lemma dec_inj : forall a b, dec a = dec b -> a = b.
Proof. intros a b H. rewrite <- (proj1 (C74_numbers a)), <- (proj1 (C74_numbers b)), H. reflexivity. Qed.
Lemma digits_cut : forall l m x y r q, Forall digit l -> Forall digit m -> ~ digit x -> ~ digit y ->
  l ++ x :: r = m ++ y :: q -> l = m /\ x :: r = y :: q.
Proof.
  induction l as [|a l IH]; intros [|b m] x y r q L M X Y H; cbn in H.
  - auto.
  - injection H as -> _. apply Forall_cons_iff in M. destruct M. contradiction.
  - injection H as <- _. apply Forall_cons_iff in L. destruct L. contradiction.
  - injection H as <- H. apply Forall_cons_iff in L, M. destruct L, M. destruct (IH m x y r q) as (-> & E); auto.
Qed.
(** A number in front of something that is not a digit can be read off. *)
Lemma dec_cut : forall a b x y r q, ~ digit x -> ~ digit y -> dec a ++ x :: r = dec b ++ y :: q -> a = b /\ x :: r = y :: q.
Proof.
  intros a b x y r q X Y H. apply digits_cut in H; auto; try apply ddigits_digit. destruct H as (H & E). split; [apply dec_inj; exact H|exact E].
Qed.
Lemma cut_dec : forall a b x r, ~ digit x -> dec a ++ x :: r = dec b ++ x :: r -> a = b.
Proof. intros a b x r X H. apply dec_cut in H; auto. apply H. Qed.
Lemma byte_to_N_inj : forall a b, Byte.to_N a = Byte.to_N b -> a = b.
Proof. intros a b H. assert (E : Some a = Some b) by (rewrite <- (Byte.of_to_N a), <- (Byte.of_to_N b), H; reflexivity). congruence. Qed.
Lemma version_inj : forall a b, version_debug a = version_debug b -> a = b.
Proof. unfold version_debug. intros a b H. apply app_inv_head, app_inv_tail in H. apply dec_inj, H. Qed.
Lemma opt_debug_inj : forall a b, opt_debug a = opt_debug b -> a = b.
Proof.
  intros [a|] [b|] H; try reflexivity; try discriminate H. unfold opt_debug in H. apply app_inv_head, app_inv_tail in H. apply dec_inj in H. congruence.
Qed.
Lemma first_cut : forall (c : byte) l m r q, ~ In c l -> ~ In c m -> l ++ c :: r = m ++ c :: q -> l = m /\ r = q.
Proof.
  induction l as [|a l IH]; intros [|b m] r q L M H.
  - injection H as H. auto.
  - injection H as <- _. exfalso. apply M. left. reflexivity.
  - injection H as -> _. exfalso. apply L. left. reflexivity.
  - injection H as <- H. destruct (IH m r q) as (-> & ->); auto; intros X; [apply L|apply M]; right; exact X.
Qed.
Lemma last_cut : forall (c : byte) l m r q, ~ In c r -> ~ In c q -> l ++ c :: r = m ++ c :: q -> l = m /\ r = q.
Proof.
  intros c l m r q R Q H. apply (f_equal (@rev byte)) in H. rewrite !rev_app_distr in H. cbn [rev] in H. rewrite <- !app_assoc in H. cbn [app] in H.
  apply first_cut in H; [|rewrite <- in_rev; assumption..]. destruct H as (A & B).
  split; [rewrite <- (rev_involutive l), B; apply rev_involutive|rewrite <- (rev_involutive r), A; apply rev_involutive].
Qed.
Lemma comma_cut : forall l m r q : list byte, ~ In ","%byte r -> ~ In ","%byte q -> l ++ str ", got " ++ r = m ++ str ", got " ++ q -> l = m /\ r = q.
Proof.
  assert (G : forall r, ~ In ","%byte r -> ~ In ","%byte (str " got " ++ r)).
  { intros r R X. apply in_app_or in X. destruct X as [X|X]; [|exact (R X)]. cbn in X. repeat (destruct X as [X|X]; [discriminate|]). exact X. }
  intros l m r q R Q H. apply (last_cut ","%byte l m (str " got " ++ r) (str " got " ++ q)) in H; auto. destruct H as (-> & H). apply app_inv_head in H. auto.
Qed.

Section WithTexts.
Context {texts : Texts}.

(** ** The text of the cause is in the text of the error *)
Lemma ends_app : forall p m, ends_with (p ++ m) m.
Proof. intros p m. exists p. reflexivity. Qed.
Lemma ends_refl : forall m, ends_with m m.
Proof. intros m. exists []. reflexivity. Qed.
Lemma ends_trans : forall a b c, ends_with a b -> ends_with b c -> ends_with a c.
Proof. intros a b c (p & ->) (q & ->). exists (p ++ q). apply app_assoc. Qed.
Lemma container_ends : forall e, ends_with (container_display e) (display (as_error e)).
Proof. intros [e|e|e|e]; apply ends_app. Qed.
(** The text of an error ends with the text of its source, and so with that of every error the
    walk along the sources finds; but a data error that has a source prints that in its [{:?}]
    form. *)
Theorem C74_cause_is_shown_partial : forall d x, leads d x -> (forall d1, leads d d1 -> debug_printed d1 -> d1 = x) -> ends_with (display d) (display x).
Proof.
  intros d x H. induction H as [d|d d1 d2 S L IH]; intros N; [apply ends_refl|].
  assert (B : forall d3, leads d1 d3 -> debug_printed d3 -> d3 = d2) by (intros d3 X; apply N; eapply leads_on; eauto).
  eapply ends_trans; [|apply IH; exact B]. assert (D : debug_printed d -> d = d2) by (apply N; constructor).
  destruct d as [e|b|e|e|w|e|e|e|e|e|e|e|e|]; cbn in S; try discriminate.
  - destruct e; try discriminate; injection S as <-; specialize (D I); subst d2.
    all: exfalso; apply leads_inv in L; destruct L as [L|(d3 & L & _)]; discriminate L.
  - injection S as <-. apply container_ends.
  - injection S as <-. apply container_ends.
  - destruct e; [|discriminate]. injection S as <-. apply ends_app.
  - destruct e; [discriminate|]. injection S as <-. apply ends_app.
  - destruct e; injection S as <-; apply ends_app.
  - injection S as <-. apply ends_app.
  - destruct e; try discriminate; injection S as <-; apply ends_app.
Qed.
(** Those two show it in the other form. *)
Theorem C74_cause_as_debug :
  (forall x, ends_with (display (DData (BrokenCompression x))) (io_debug x)) /\
  (forall b, ends_with (display (DData (InvalidNodeNameEncoding b))) (utf8_debug b)).
Proof. split; intros; apply ends_app. Qed.

(** ** Different errors print as different texts *)
Lemma data_distinct : telling texts -> forall a b, plain (EData a) -> plain (EData b) -> data_display a = data_display b -> a = b.
Proof.
  intros [T1 T2 T3] a b A B H. destruct a, b; try reflexivity; try discriminate H; unfold data_display in H; apply app_inv_head in H.
  - apply T2 in H. congruence.
  - apply dec_inj in H. congruence.
  - apply dec_inj in H. apply byte_to_N_inj in H. congruence.
  - apply T3 in H. congruence.
  - apply dec_cut in H; try (unfold digit; vm_compute; intros [X Y]; congruence). destruct H as (-> & H). injection H as H. apply opt_debug_inj in H. congruence.
  - apply comma_cut in H; auto. destruct H. congruence.
Qed.
Lemma operation_distinct : forall a b, operation_display a = operation_display b -> a = b.
Proof.
  intros a b H. destruct a, b; try reflexivity; try discriminate H. unfold operation_display in H. apply app_inv_head in H. apply version_inj in H. congruence.
Qed.
Lemma warning_distinct : forall a b, warning_display a = warning_display b -> a = b.
Proof.
  intros a b H. destruct a, b; try reflexivity; try discriminate H. unfold warning_display in H. apply app_inv_head in H.
  apply dec_cut in H; try (unfold digit; vm_compute; intros [X Y]; congruence). destruct H as (-> & H). apply (app_inv_head (str " bytes, got ")) in H.
  apply app_inv_tail in H. apply dec_inj in H. congruence.
Qed.
Lemma container_distinct : telling texts -> forall a b, plain a -> plain b -> container_display a = container_display b -> a = b.
Proof.
  intros T a b A B H. destruct a, b; try discriminate H; unfold container_display in H; apply app_inv_head in H; f_equal.
  - apply data_distinct; auto.
  - apply (tell_io _ T). exact H.
  - apply operation_distinct. exact H.
  - apply warning_distinct. exact H.
Qed.
(** For the reader: the text is the same exactly if the kind of the error and all its numbers
    and causes are; the position is not part of it. *)
Theorem C74_reader_partial : telling texts -> forall a b, plain (e_error a) -> plain (e_error b) ->
  (display (DPull a) = display (DPull b) <-> e_error a = e_error b).
Proof.
  intros T a b A B. split; [apply container_distinct; auto|]. intros H. cbn. unfold pull_display. rewrite H. reflexivity.
Qed.
(** For warnings and misuses no condition is needed. *)
Theorem C74_warnings : (forall a b, display (DWarning a) = display (DWarning b) -> a = b) /\ forall a b, display (DOperation a) = display (DOperation b) -> a = b.
Proof. split; [exact warning_distinct|exact operation_distinct]. Qed.
(** For the writer: different errors, different texts. *)
Theorem C74_writer : telling texts -> forall a b, display (DWrite a) = display (DWrite b) -> a = b.
Proof.
  intros T a b H. cbn in H. destruct a, b; try reflexivity; try discriminate H; unfold write_display, compression_display in H; repeat apply app_inv_head in H.
  all: try (apply app_inv_tail in H; apply dec_inj in H; congruence).
  all: try (apply dec_inj in H; congruence).
  all: try (apply (tell_io _ T) in H; congruence).
Qed.
(** The text says [label] and then [value], and no digit follows. *)
Definition says (text label value : list byte) : Prop :=
  exists pre post, text = pre ++ label ++ value ++ post /\ match post with [] => True | c :: _ => ~ (48 <= bN c <= 57)%N end.
(** What was expected is printed after "expected", and what was found after "got". *)
Theorem C74_expected_and_got :
  (forall a b, let t := display (DData (NodeLengthMismatch a (Some b))) in says t (str "expected ") (dec a) /\ says t (str "got Some(") (dec b)) /\
  (forall a, let t := display (DData (NodeLengthMismatch a None)) in says t (str "expected ") (dec a) /\ says t (str "got ") (str "None")) /\
  (forall a b, let t := display (DWarning (InvalidFooterPaddingLength a b)) in says t (str "expected ") (dec a) /\ says t (str "got ") (dec b)) /\
  (forall a b, let t := display (DData (UnexpectedAttribute a b)) in says t (str "expected ") a /\ says t (str "got ") b).
Proof.
  assert (X : forall t l v pre post, t = pre ++ l ++ v ++ post -> match post with [] => True | c :: _ => ~ (48 <= bN c <= 57)%N end -> says t l v) by (intros; eexists _, _; eauto).
  split; [|split; [|split]]; intros; cbv zeta; cbn [display]; unfold data_display, warning_display, opt_debug; split.
  - apply (X _ _ _ (str "Node ends with unexpected position: ") (str ", got Some(" ++ dec b ++ str ")")); [reflexivity|]. vm_compute. intuition congruence.
  - apply (X _ _ _ (str "Node ends with unexpected position: expected " ++ dec a ++ str ", ") (str ")")); [rewrite <- !app_assoc; reflexivity|]. vm_compute. intuition congruence.
  - apply (X _ _ _ (str "Node ends with unexpected position: ") (str ", got None")); [reflexivity|]. vm_compute. intuition congruence.
  - apply (X _ _ _ (str "Node ends with unexpected position: expected " ++ dec a ++ str ", ") []); [rewrite <- !app_assoc; reflexivity|exact I].
  - apply (X _ _ _ (str "Invalid footer padding length: ") (str " bytes, got " ++ dec b ++ str " bytes")); [reflexivity|]. vm_compute. intuition congruence.
  - apply (X _ _ _ (str "Invalid footer padding length: expected " ++ dec a ++ str " bytes, ") (str " bytes")); [rewrite <- !app_assoc; reflexivity|]. vm_compute. intuition congruence.
  - apply (X _ _ _ (str "Unexpected attribute value or type: ") (str ", got " ++ b)); [reflexivity|]. vm_compute. intuition congruence.
  - apply (X _ _ _ (str "Unexpected attribute value or type: expected " ++ a ++ str ", ") []); [rewrite <- !app_assoc, app_nil_r; reflexivity|exact I].
Qed.
(** For opening and loading a document. *)
Definition load_core (e : any_tree_error) : option econtainer :=
  match e with TreeLoad (LoadParser e) => Some (e_error e) | _ => None end.
(** The same error, apart from its position. *)
Definition same_error (a b : any_tree_error) : Prop :=
  match a, b with
  | TreeLoad (LoadParser a), TreeLoad (LoadParser b) => e_error a = e_error b
  | _, _ => a = b
  end.
Definition plain_load (e : any_tree_error) : Prop := match load_core e with Some c => plain c | None => True end.
Theorem C74_loading_partial : telling texts -> not_magic texts -> forall a b, plain_load a -> plain_load b ->
  (display (DTree a) = display (DTree b) <-> same_error a b).
Proof.
  intros T M a b A B. cbn. split.
  - intros H. destruct a as [a|[|a]], b as [b|[|b]]; try discriminate H; unfold tree_display, load_display in H.
    + apply app_inv_head in H. cbn. f_equal. destruct a as [[x|]|v], b as [[y|]|w]; try discriminate H; unfold any_display, header_display in H; apply app_inv_head in H.
      * apply (tell_io _ T) in H. congruence.
      * exfalso. exact (M _ H).
      * exfalso. symmetry in H. exact (M _ H).
      * reflexivity.
      * apply version_inj in H. congruence.
    + reflexivity.
    + apply app_inv_head, app_inv_head in H. cbn. apply container_distinct; auto.
  - intros H. destruct a as [a|[|a]], b as [b|[|b]]; cbn in H; try discriminate H; try congruence. cbn. unfold pull_display. rewrite H. reflexivity.
Qed.
End WithTexts.

(** What the methods of a loader that were not overridden return is such an error, whatever
    text the loader gives for what it expects. *)
Theorem C74_default_errors : forall O ex, let l := default_loader O ex in
  let ok (r : perr + O) := exists e, r = inl e /\ plain (e_error e) in
  (forall v, ok (ld_bool l v)) /\ (forall v, ok (ld_i16 l v)) /\ (forall v, ok (ld_i32 l v)) /\ (forall v, ok (ld_i64 l v)) /\
  (forall v, ok (ld_f32 l v)) /\ (forall v, ok (ld_f64 l v)) /\
  (forall n, exists r, ld_abool l n = SRet r /\ ok r) /\ (forall n, exists r, ld_ai32 l n = SRet r /\ ok r) /\ (forall n, exists r, ld_ai64 l n = SRet r /\ ok r) /\
  (forall n, exists r, ld_af32 l n = SRet r /\ ok r) /\ (forall n, exists r, ld_af64 l n = SRet r /\ ok r) /\
  (forall n, exists r, ld_bin l n = RRet r /\ ok r) /\ (forall n, exists r, ld_str l n = RRet r /\ ok r) /\
  (forall n, exists r, ld_bin_buf l n = RRet r /\ ok r) /\ (forall n, exists r, ld_str_buf l n = RRet r /\ ok r).
Proof.
  intros O ex l ok.
  assert (K : forall got, forallb (fun b => negb (Byte.eqb b ",")) (str got) = true -> ok (unexpected ex got)).
  { intros got H. eexists. split; [reflexivity|]. cbn. intros X. rewrite forallb_forall in H. specialize (H _ X). discriminate. }
  repeat match goal with |- _ /\ _ => split end; intros; first [apply K; reflexivity|eexists; split; [reflexivity|apply K; reflexivity]].
Qed.

(** ** Examples *)
Module MessageCases.
(** Texts like those of the standard library. *)
Definition io_name (e : ioerr) : list byte :=
  match e with
  | IoEof => str "failed to fill whole buffer"
  | IoUtf8 => str "stream did not contain valid UTF-8"
  | IoZlib => str "corrupt deflate stream"
  | IoWriteZero => str "failed to write whole buffer"
  | IoIntr => str "operation interrupted"
  | IoOther c => str "os error " ++ dec c
  end.
#[local] Instance std_texts : Texts := {
  io_display := io_name;
  io_debug := fun e => str "Custom { kind: Other, error: """ ++ io_name e ++ str """ }";
  utf8_display := fun b => str "invalid utf-8 sequence";
  utf8_debug := fun b => str "FromUtf8Error { bytes: [" ++ flat_map (fun x => dec (Byte.to_N x) ++ str ", ") b ++ str "] }";
  user_display := str "disk is on fire"
}.
Lemma io_name_inj : forall a b, io_name a = io_name b -> a = b.
Proof. intros [] [] H; try reflexivity; try discriminate H. unfold io_name in H. apply app_inv_head in H. apply dec_inj in H. congruence. Qed.
(** The hypotheses of the theorems. *)
Example std_telling : telling std_texts /\ not_magic std_texts.
Proof.
  split; [split|].
  - exact io_name_inj.
  - intros a b H. cbn -[str] in H. apply app_inv_head, app_inv_tail in H. apply io_name_inj, H.
  - intros a b H. cbn -[str] in H. apply app_inv_head, app_inv_tail in H. revert b H. induction a as [|x a IH]; intros [|y b] H; cbn [flat_map] in H.
    + reflexivity.
    + exfalso. destruct (dec (Byte.to_N y)); discriminate H.
    + exfalso. destruct (dec (Byte.to_N x)); discriminate H.
    + rewrite <- !app_assoc in H. apply dec_cut in H; try (unfold digit; vm_compute; intros [X Y]; congruence). destruct H as (E & H). injection H as H.
      apply byte_to_N_inj in E. subst y. f_equal. apply IH, H.
  - intros [] H; discriminate H.
Qed.

(** Some texts in full. *)
Example reader_ex :
  display (DPull (mkErr (EData (NodeLengthMismatch 2019 (Some 40%N))) None)) = str "Data error: Node ends with unexpected position: expected 2019, got Some(40)" /\
  display (DPull (mkErr (EOperation (UnsupportedFbxVersion 6100)) None)) = str "Invalid operation: Unsupported FBX version: parser=V7400, fbx=FbxVersion(6100)" /\
  display (DPull (mkErr (EWarning (InvalidFooterPaddingLength 0 16)) None)) = str "Warning considered critical: Invalid footer padding length: expected 0 bytes, got 16 bytes" /\
  display (DWrite (Compression IoZlib)) = str "Compression error: Zlib compression error: corrupt deflate stream" /\
  display (DTree (TreeLoad (LoadParser (mkErr (EIo IoEof) None)))) = str "Tree load error: Parser error: I/O error: failed to fill whole buffer" /\
  display (DTree (TreeParserCreation (AnyHeader MagicNotDetected))) = str "Failed to create a parser: FBX header error: FBX magic binary is not detected".
Proof. repeat split; vm_compute; reflexivity. Qed.
(** A cause that is shown, four steps down. *)
Example cause_ex : leads (DTree (TreeLoad (LoadParser (mkErr (EIo IoEof) None)))) (DIo IoEof) /\
  (forall d, leads (DTree (TreeLoad (LoadParser (mkErr (EIo IoEof) None)))) d -> ~ debug_printed d).
Proof.
  split; [repeat (eapply leads_on; [reflexivity|]); constructor|].
  intros d H. do 3 (apply leads_inv in H; destruct H as [<-|(? & [= <-] & H)]; [exact (fun x => x)|]). apply leads_inv in H. destruct H as [<-|(? & [=] & _)]. exact (fun x => x).
Qed.
(** The error of the example of C67. *)
Definition behind : perr := Eval vm_compute in match ViewCases.errors 135 with e :: _ => e | [] => mkErr (EIo IoEof) None end.
Lemma behind_ex : In behind (ViewCases.errors 135).
Proof.
  assert (H : hd_error (ViewCases.errors 135) = Some behind) by (vm_compute; reflexivity).
  destruct (ViewCases.errors 135) as [|e l]; [discriminate H|]. injection H as ->. left. reflexivity.
Qed.
End MessageCases.

(** The condition of the first theorem is needed: a loader met a failing reader in compressed
    data (the example of C67), and the text does not end with the text of the failure. *)
Theorem C74_cause_refuted : exists (texts : Texts) e x,
  In e (ViewCases.errors 135) /\ leads (DPull e) (DIo x) /\ ~ ends_with (display (DPull e)) (display (DIo x)).
Proof.
  exists MessageCases.std_texts, MessageCases.behind, (IoOther 9). split; [exact MessageCases.behind_ex|].
  split; [apply pull_leads; right; reflexivity|]. intros (p & H). apply (f_equal (@rev byte)) in H. rewrite rev_app_distr in H.
  apply (f_equal (@hd_error byte)) in H. vm_compute in H. discriminate H.
Qed.
(** And those of the second and third: two errors a user's loader can return, and two failures to
    open a document, with the same text. *)
Theorem C74_distinct_refuted : exists texts : Texts, telling texts /\
  exists a b, a <> b /\ display (DPull (err_from (EData a))) = display (DPull (err_from (EData b))).
Proof.
  exists MessageCases.std_texts. split; [apply MessageCases.std_telling|].
  exists (UnexpectedAttribute (str "one, got two") (str "three")), (UnexpectedAttribute (str "one") (str "two, got three")). split; [discriminate|reflexivity].
Qed.
Theorem C74_magic_refuted : exists texts : Texts, telling texts /\ exists (env : Env) data1 data2 a b,
  any_tree (mkStream data1 0 [AFail 7] []) true = Err a /\ any_tree (mkStream data2 0 [] []) true = Err b /\ ~ same_error a b /\
  display (DTree a) = display (DTree b).
Proof.
  exists {| io_display := fun e => match e with IoOther 7 => str "FBX magic binary is not detected" | _ => MessageCases.io_name e end;
    io_debug := io_debug (Texts := MessageCases.std_texts); utf8_display := utf8_display (Texts := MessageCases.std_texts);
    utf8_debug := utf8_debug (Texts := MessageCases.std_texts); user_display := [] |}.
  split.
  - split; [|apply MessageCases.std_telling..]. intros a b H. cbn -[str] in H.
    assert (N : forall e, MessageCases.io_name e <> str "FBX magic binary is not detected") by (intros [] X; discriminate X).
    assert (S : forall e, e = IoOther 7 \/ match e with IoOther 7 => str "FBX magic binary is not detected" | _ => MessageCases.io_name e end = MessageCases.io_name e).
    { intros [| | | | |c]; auto. destruct (N.eq_dec c 7) as [->|C]; [auto|right]. destruct c as [|[[[]|[]|]|[]|]]; congruence. }
    destruct (S a) as [->|A], (S b) as [->|B]; [reflexivity|..].
    + rewrite B in H. exfalso. exact (N _ (eq_sym H)).
    + rewrite A in H. exfalso. exact (N _ H).
    + rewrite A, B in H. apply MessageCases.io_name_inj, H.
  - exists release, (sample_doc 7400), (List.repeat "x"%byte 40). do 2 eexists. split; [vm_compute; reflexivity|]. split; [vm_compute; reflexivity|].
    split; [discriminate|vm_compute; reflexivity].
Qed.

Print Assumptions C74_numbers.
Print Assumptions C74_cause_is_shown_partial.
Print Assumptions C74_cause_as_debug.
Print Assumptions C74_reader_partial.
Print Assumptions C74_warnings.
Print Assumptions C74_writer.
Print Assumptions C74_loading_partial.
Print Assumptions C74_default_errors.
Print Assumptions C74_cause_refuted.
Print Assumptions C74_distinct_refuted.
Print Assumptions C74_magic_refuted.
