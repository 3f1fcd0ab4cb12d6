(** Facts about the document format of Spec.v. *)
Require Import Coq.Lists.List Coq.NArith.NArith Coq.ZArith.ZArith Coq.Bool.Bool Coq.micromega.Lia.
Require Import ZifyBool ZifyNat ZifyN.
Require Import Verif.Base Verif.BaseFacts Verif.Utf8 Verif.Types Verif.Io Verif.Parser Verif.Spec.
Import ListNotations.
Ltac Zify.zify_post_hook ::= Z.div_mod_to_equations.

(** Induction over nodes with the children covered. *)
Fixpoint node_ind2 (P : node -> Prop) (H : forall name ats kids, Forall P kids -> P (Node name ats kids)) (n : node) : P n :=
  match n with
  | Node name ats kids =>
      H name ats kids ((fix go l : Forall P l := match l with
                                                 | [] => Forall_nil P
                                                 | k :: l' => Forall_cons k (node_ind2 P H k) (go l')
                                                 end) kids)
  end.

Section WithEnv.
Context {env : Env}.

Definition marker_size {A B} (ver : N) (ats : list A) (kids : list B) : N :=
  if needs_marker ats kids then header_size ver else 0%N.
Definition marker {A B} (ver : N) (ats : list A) (kids : list B) : list byte :=
  if needs_marker ats kids then end_marker ver else [].

Lemma node_size_eq : forall ver name ats kids,
  node_size ver (Node name ats kids) =
  (header_size ver + lenN name + lenN (enc_attrs ats) + nodes_size ver kids + marker_size ver ats kids)%N.
Proof.
  intros ver name ats kids. reflexivity.
Qed.
Lemma nodes_size_cons : forall ver k l, nodes_size ver (k :: l) = (node_size ver k + nodes_size ver l)%N.
Proof. reflexivity. Qed.
Lemma nodes_size_app : forall ver a b, nodes_size ver (a ++ b) = (nodes_size ver a + nodes_size ver b)%N.
Proof. intros ver a b. induction a as [|k a IH]; [reflexivity|]. cbn [app]. rewrite !nodes_size_cons, IH. lia. Qed.
Lemma nodes_size_snoc : forall ver a k, nodes_size ver (a ++ [k]) = (nodes_size ver a + node_size ver k)%N.
Proof. intros. rewrite nodes_size_app, nodes_size_cons. cbn [nodes_size fold_right]. lia. Qed.

Lemma enc_node_eq : forall ver off name ats kids,
  enc_node ver off (Node name ats kids) =
  le_enc (width ver) (off + node_size ver (Node name ats kids)) ++ le_enc (width ver) (lenN ats) ++
  le_enc (width ver) (lenN (enc_attrs ats)) ++ [Nb (lenN name)] ++ name ++ enc_attrs ats ++
  enc_nodes ver (off + header_size ver + lenN name + lenN (enc_attrs ats)) kids ++ marker ver ats kids.
Proof.
  intros ver off name ats kids. cbn [enc_node]. unfold marker. do 6 f_equal. f_equal.
  generalize (off + header_size ver + lenN name + lenN (enc_attrs ats))%N.
  induction kids as [|k kids IH]; intros o; [reflexivity|]. cbn [enc_nodes]. rewrite IH. reflexivity.
Qed.

Lemma header_size_width : forall ver, header_size ver = (3 * N.of_nat (width ver) + 1)%N.
Proof. reflexivity. Qed.
Lemma header_size_pos : forall ver, (13 <= header_size ver)%N.
Proof. intros ver. unfold header_size, width. destruct (ver <? 7500)%N; lia. Qed.
Lemma marker_len : forall A B ver (ats : list A) (kids : list B), lenN (marker ver ats kids) = marker_size ver ats kids.
Proof.
  intros. unfold marker, marker_size, end_marker, zeros. destruct (needs_marker ats kids); [|reflexivity].
  unfold lenN. rewrite repeat_length. unfold header_size. lia.
Qed.
Lemma end_marker_len : forall ver, lenN (end_marker ver) = header_size ver.
Proof. intros. unfold end_marker, zeros, lenN. rewrite repeat_length. unfold header_size. lia. Qed.

Lemma enc_nodes_len : forall ver l, Forall (fun n => forall off, lenN (enc_node ver off n) = node_size ver n) l ->
  forall off, lenN (enc_nodes ver off l) = nodes_size ver l.
Proof.
  intros ver l H. induction H as [|n l Hn _ IH]; intros off; [reflexivity|]. cbn [enc_nodes]. rewrite lenN_app, Hn, IH, nodes_size_cons. reflexivity.
Qed.
Lemma enc_node_len : forall ver n off, lenN (enc_node ver off n) = node_size ver n.
Proof.
  intros ver n. induction n as [name ats kids IH] using node_ind2. intros off. rewrite enc_node_eq, node_size_eq.
  rewrite !lenN_app, !le_enc_lenN, (enc_nodes_len ver kids IH), marker_len. unfold header_size. change (lenN [Nb (lenN name)]) with 1%N. lia.
Qed.
Lemma enc_nodes_len' : forall ver l off, lenN (enc_nodes ver off l) = nodes_size ver l.
Proof. intros. apply enc_nodes_len. apply Forall_forall. intros n _ o. apply enc_node_len. Qed.
Lemma enc_nodes_app : forall ver a b off, enc_nodes ver off (a ++ b) = enc_nodes ver off a ++ enc_nodes ver (off + nodes_size ver a) b.
Proof.
  intros ver a. induction a as [|n a IH]; intros b off; cbn [app enc_nodes nodes_size fold_right]; [rewrite N.add_0_r; reflexivity|].
  rewrite IH, <- app_assoc. do 3 f_equal. unfold nodes_size. lia.
Qed.
Lemma node_size_pos : forall ver n, (13 <= node_size ver n)%N.
Proof. intros ver [name ats kids]. rewrite node_size_eq. pose proof (header_size_pos ver). lia. Qed.

Lemma node_ok_eq : forall name ats kids, node_ok (Node name ats kids) <->
  utf8_valid name = true /\ (lenN name < 256)%N /\ Forall attr_ok ats /\ Forall node_ok kids.
Proof.
  intros name ats kids. cbn [node_ok].
  assert (E : (fix go (l : list node) : Prop := match l with [] => True | k :: l' => node_ok k /\ go l' end) kids <-> Forall node_ok kids).
  { induction kids as [|k kids IH]; [split; constructor|]. rewrite IH. split; [intros [? ?]; constructor; assumption|intros F; inversion F; subst; auto]. }
  rewrite E. reflexivity.
Qed.
Lemma counts_ok_eq : forall ver name ats kids, counts_ok ver (Node name ats kids) <->
  u_ok (width ver) (lenN ats) /\ u_ok (width ver) (lenN (enc_attrs ats)) /\ Forall (counts_ok ver) kids.
Proof.
  intros ver name ats kids. cbn [counts_ok].
  assert (E : (fix go (l : list node) : Prop := match l with [] => True | k :: l' => counts_ok ver k /\ go l' end) kids <-> Forall (counts_ok ver) kids).
  { induction kids as [|k kids IH]; [split; constructor|]. rewrite IH. split; [intros [? ?]; constructor; assumption|intros F; inversion F; subst; auto]. }
  rewrite E. reflexivity.
Qed.

End WithEnv.
