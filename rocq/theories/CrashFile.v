(** Files whose top-level headers do not lead to an end marker. *)
Require Import Coq.Lists.List Coq.NArith.NArith Coq.ZArith.ZArith Coq.Bool.Bool Coq.micromega.Lia.
Require Import Coq.Init.Byte.
Require Import ZifyBool ZifyNat ZifyN.
Require Import Verif.Base Verif.BaseFacts Verif.Utf8 Verif.Types Verif.Io Verif.Parser Verif.Zlib Verif.Spec Verif.SpecFacts Verif.SpecLayout
  Verif.SpecTruth Verif.SpecCrash Verif.FooterFacts Verif.Writer Verif.WriterSpec Verif.WriterNodes.
Import ListNotations.
Ltac Zify.zify_post_hook ::= Z.div_mod_to_equations.

Section WithEnv.
Context {env : Env}.

Lemma at_offset_here : forall pre bs post, at_offset (pre ++ bs ++ post) (lenN pre) bs.
Proof. intros. exists pre, post. auto. Qed.
Lemma at_offset_left : forall data off a b, at_offset data off (a ++ b) -> at_offset data off a.
Proof. intros data off a b (pre & post & -> & <-). exists pre, (b ++ post). rewrite <- app_assoc. auto. Qed.
Lemma at_offset_unique : forall data off a b, at_offset data off a -> at_offset data off b -> length a = length b -> a = b.
Proof.
  intros data off a b (pre & post & -> & L) (pre' & post' & E & L') Le. assert (length pre = length pre') by (unfold lenN in *; lia).
  apply app_eq_len in E; [|assumption]. destruct E as [_ E]. apply app_eq_len in E; [|assumption]. apply E.
Qed.
Lemma at_offset_len : forall data off a, at_offset data off a -> (off + lenN a <= lenN data)%N.
Proof. intros data off a (pre & post & -> & <-). rewrite !lenN_app. lia. Qed.

Lemma width_pos : forall ver, (0 < width ver)%nat.
Proof. intros ver. unfold width. destruct (_ <? _)%N; lia. Qed.
Lemma marker_split : forall ver, end_marker ver = le_enc (width ver) 0 ++ zeros (2 * width ver + 1).
Proof. intros ver. unfold end_marker. rewrite le_enc_0, <- zeros_app. f_equal. lia. Qed.
Lemma le_enc_inj : forall k a b, u_ok k a -> u_ok k b -> le_enc k a = le_enc k b -> a = b.
Proof. intros k a b A B E. apply (f_equal le_dec) in E. rewrite !le_dec_enc in E by assumption. exact E. Qed.
Lemma u_ok_0 : forall k, u_ok k 0.
Proof. intros k. unfold u_ok. apply N.neq_0_lt_0. apply N.pow_nonzero. discriminate. Qed.

(** The end offset stored at [off]. *)
Lemma stored_end : forall data ver off E ends count claimed name, at_offset data off (le_enc (width ver) E) -> u_ok (width ver) E ->
  header_at data ver off ends count claimed name -> ends = E.
Proof.
  intros data ver off E ends count claimed name A U (H & Ue & _). unfold lay_header in H. apply at_offset_left in H.
  eapply le_enc_inj; [exact Ue|exact U|]. eapply at_offset_unique; [exact H|exact A|]. rewrite !le_enc_length. reflexivity.
Qed.
Lemma stored_marker : forall data ver off E, at_offset data off (le_enc (width ver) E) -> u_ok (width ver) E ->
  at_offset data off (end_marker ver) -> E = 0%N.
Proof.
  intros data ver off E A U H. rewrite marker_split in H. apply at_offset_left in H.
  eapply le_enc_inj; [exact U|apply u_ok_0|]. eapply at_offset_unique; [exact A|exact H|]. rewrite !le_enc_length. reflexivity.
Qed.
Lemma header_fits : forall data ver off ends count claimed name, header_at data ver off ends count claimed name ->
  (off + header_size ver <= lenN data)%N.
Proof.
  intros data ver off ends count claimed name (H & _). apply at_offset_len in H. unfold lay_header in H. rewrite !lenN_app, !le_enc_lenN in H.
  rewrite header_size_width. change (lenN [Nb (lenN name)]) with 1%N in H. lia.
Qed.

(** The chain of headers of closed top-level nodes. *)
Definition base (ver : N) (ns : list node) : list byte := spec_magic ++ le_enc 4 ver ++ enc_nodes ver 27 ns.
Lemma base_len : forall ver ns, lenN (base ver ns) = (27 + nodes_size ver ns)%N.
Proof. intros. exact (enc_base_len ver ns). Qed.

Lemma node_starts : forall ver off n, exists rest, enc_node ver off n = le_enc (width ver) (off + node_size ver n) ++ rest.
Proof. intros ver off [name ats kids]. cbn [enc_node]. eexists. reflexivity. Qed.

Lemma base_field : forall ver a n b tail, at_offset (base ver (a ++ n :: b) ++ tail) (27 + nodes_size ver a)
  (le_enc (width ver) (27 + nodes_size ver (a ++ [n]))).
Proof.
  intros ver a n b tail. unfold base. rewrite enc_nodes_app. cbn [enc_nodes]. destruct (node_starts ver (27 + nodes_size ver a) n) as (rest & ->).
  rewrite nodes_size_snoc, N.add_assoc.
  exists (base ver a), (rest ++ enc_nodes ver (27 + nodes_size ver a + node_size ver n) b ++ tail). split; [unfold base; rewrite <- !app_assoc; reflexivity|apply base_len].
Qed.

(** Offsets on the chain. *)
Definition boundary (ver : N) (ns : list node) (off : N) : Prop := exists a b, ns = a ++ b /\ off = (27 + nodes_size ver a)%N.

Lemma chain : forall ver ns tail off, u_ok (width ver) (27 + nodes_size ver ns) -> boundary ver ns off ->
  off = (27 + nodes_size ver ns)%N \/
  (forall ends count claimed name, header_at (base ver ns ++ tail) ver off ends count claimed name -> boundary ver ns ends) /\
  ~ at_offset (base ver ns ++ tail) off (end_marker ver).
Proof.
  intros ver ns tail off U (a & [|n b] & -> & ->); [left; rewrite app_nil_r; reflexivity|]. right.
  assert (Un : u_ok (width ver) (27 + nodes_size ver (a ++ [n]))).
  { unfold u_ok in *. rewrite nodes_size_app, nodes_size_cons in *. change (nodes_size ver []) with 0%N. lia. }
  pose proof (base_field ver a n b tail) as F. split.
  - intros ends count claimed name H. rewrite (stored_end _ _ _ _ _ _ _ _ F Un H). exists (a ++ [n]), b. rewrite <- app_assoc. auto.
  - intros M. apply (stored_marker _ _ _ _ F Un) in M. lia.
Qed.

(** Nothing but the closed nodes and what [tail] is. *)
Lemma chain_ends : forall ver ns tail (P : N -> Prop), u_ok (width ver) (27 + nodes_size ver ns) ->
  let B := (27 + nodes_size ver ns)%N in let data := base ver ns ++ tail in
  P B ->
  (forall off ends count claimed name, P off -> header_at data ver off ends count claimed name -> lay_header ver ends count claimed name <> end_marker ver ->
     (off + header_size ver + lenN name <= ends)%N -> P ends) ->
  forall off, top_level data ver off -> at_offset data off (end_marker ver) -> P off.
Proof.
  intros ver ns tail P U B data PB PS.
  assert (G : forall off, top_level data ver off -> (boundary ver ns off /\ off <> B) \/ P off).
  { assert (Q : forall off, boundary ver ns off -> (boundary ver ns off /\ off <> B) \/ P off).
    { intros off Hb. destruct (N.eq_dec off B) as [->|N]; auto. }
    intros off H. induction H as [|off ends count claimed name H IH Hh Hm Hl].
    - apply Q. exists [], ns. split; [reflexivity|]. reflexivity.
    - destruct IH as [[IH Ne]|IH]; [|right; eapply PS; eassumption].
      destruct (chain ver ns tail off U IH) as [C|[C _]]; [contradiction|]. apply Q. eapply C. exact Hh. }
  intros off H M. destruct (G off H) as [[Hb Ne]|Hp]; [|exact Hp]. destruct (chain ver ns tail off U Hb) as [C|[_ C]]; [contradiction|]. contradiction.
Qed.

(** A file of version [ver] whose top-level nodes do not lead to an end marker. *)
Definition dead (data : list byte) (ver : N) : Prop :=
  (exists rest, data = spec_magic ++ le_enc 4 ver ++ rest) /\ forall off, top_level data ver off -> ~ at_offset data off (end_marker ver).

Lemma base_starts : forall ver ns tail, exists rest, base ver ns ++ tail = spec_magic ++ le_enc 4 ver ++ rest.
Proof. intros. exists (enc_nodes ver 27 ns ++ tail). unfold base. rewrite <- !app_assoc. reflexivity. Qed.

Lemma base_drop : forall ver ns bs tail, at_offset (base ver ns ++ bs ++ tail) (27 + nodes_size ver ns) bs.
Proof. intros. rewrite <- base_len. apply at_offset_here. Qed.

(** The file stops within a header. *)
Lemma dead_short : forall ver ns tail, u_ok (width ver) (27 + nodes_size ver ns) -> (lenN tail < header_size ver)%N -> dead (base ver ns ++ tail) ver.
Proof.
  intros ver ns tail U L. split; [apply base_starts|]. intros off H M. assert (P : off = (27 + nodes_size ver ns)%N).
  { revert off H M. apply (chain_ends ver ns tail (fun o => o = (27 + nodes_size ver ns)%N) U); [reflexivity|].
    intros off ends count claimed name -> Hh _ _. apply header_fits in Hh. rewrite lenN_app, base_len in Hh. lia. }
  subst off. apply at_offset_len in M. rewrite lenN_app, base_len, end_marker_len in M. lia.
Qed.

(** The next node is open. *)
Lemma dead_open : forall ver ns name rest, u_ok (width ver) (27 + nodes_size ver ns) -> name <> [] -> (lenN name < 256)%N ->
  dead (base ver ns ++ placeholder ver name ++ rest) ver.
Proof.
  intros ver ns name rest U Hn Ln. split; [apply base_starts|]. intros off H M.
  pose proof (base_drop ver ns (placeholder ver name) rest) as A. set (data := base ver ns ++ placeholder ver name ++ rest) in *.
  assert (A0 : at_offset data (27 + nodes_size ver ns) (le_enc (width ver) 0)).
  { rewrite <- placeholder_bytes in A. unfold hdr_bytes in A. cbn [nh_end] in A. eapply at_offset_left. exact A. }
  assert (P : off = (27 + nodes_size ver ns)%N).
  { revert off H M. apply (chain_ends ver ns (placeholder ver name ++ rest) (fun o => o = (27 + nodes_size ver ns)%N) U); [reflexivity|].
    intros off ends count claimed nm -> Hh _ L. apply (stored_end _ _ _ _ _ _ _ _ A0 (u_ok_0 _)) in Hh. lia. }
  subst off. assert (E : placeholder ver name = end_marker ver).
  { eapply at_offset_unique; [exact A|exact M|]. pose proof (placeholder_len ver name) as L1. pose proof (end_marker_len ver) as L2. unfold lenN in L1, L2. lia. }
  unfold placeholder, end_marker in E. rewrite zeros_app in E. apply app_inv_head in E. cbn [zeros repeat] in E. injection E as E.
  apply (f_equal bN) in E. rewrite bN_Nb in E. change (bN x00) with 0%N in E. destruct name; [congruence|]. rewrite lenN_cons in *. lia.
Qed.

(** The next node has its end offset, and the file ends there. *)
Lemma dead_ended : forall ver ns rest, let E := (27 + nodes_size ver ns + N.of_nat (width ver) + lenN rest)%N in u_ok (width ver) E -> u_ok (width ver) (27 + nodes_size ver ns) ->
  dead (base ver ns ++ le_enc (width ver) E ++ rest) ver.
Proof.
  intros ver ns rest E UE U. split; [apply base_starts|]. intros off H M. pose proof (base_drop ver ns (le_enc (width ver) E) rest) as A. set (data := base ver ns ++ le_enc (width ver) E ++ rest) in *.
  assert (LD : lenN data = E) by (unfold data; rewrite !lenN_app, base_len, le_enc_lenN; unfold E; lia).
  assert (P : off = (27 + nodes_size ver ns)%N \/ off = E).
  { revert off H M. apply (chain_ends ver ns (le_enc (width ver) E ++ rest) (fun o => o = (27 + nodes_size ver ns)%N \/ o = E) U); [auto|].
    intros off ends count claimed nm Ho Hh _ L. right. destruct Ho as [->| ->]; [eapply stored_end; eassumption|].
    apply header_fits in Hh. fold data in Hh. pose proof (header_size_pos ver). lia. }
  destruct P as [->| ->].
  - apply (stored_marker _ _ _ _ A UE) in M. unfold E in M. lia.
  - apply at_offset_len in M. rewrite end_marker_len in M. pose proof (header_size_pos ver). lia.
Qed.

(** All nodes are closed and an end marker follows. *)
Lemma end_unique : forall ver ns rest off, u_ok (width ver) (27 + nodes_size ver ns) ->
  top_level (base ver ns ++ end_marker ver ++ rest) ver off -> at_offset (base ver ns ++ end_marker ver ++ rest) off (end_marker ver) ->
  off = (27 + nodes_size ver ns)%N.
Proof.
  intros ver ns rest off U H M. pose proof (base_drop ver ns (end_marker ver) rest) as A. rewrite marker_split in A at 2. apply at_offset_left in A.
  revert off H M. apply (chain_ends ver ns (end_marker ver ++ rest) (fun o => o = (27 + nodes_size ver ns)%N) U); [reflexivity|].
  intros off ends count claimed nm -> Hh _ L. apply (stored_end _ _ _ _ _ _ _ _ A (u_ok_0 _)) in Hh. lia.
Qed.
End WithEnv.
