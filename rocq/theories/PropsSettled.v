(** C91: what has been written stays. *)
Require Import Coq.Lists.List Coq.NArith.NArith Coq.ZArith.ZArith Coq.Bool.Bool Coq.micromega.Lia.
Require Import ZifyBool ZifyNat ZifyN.
Require Import Verif.Base Verif.BaseFacts Verif.Utf8 Verif.Types Verif.Zlib Verif.Io Verif.IoFacts Verif.Parser Verif.Spec Verif.SpecFacts Verif.Writer Verif.WriterSpec Verif.WriterFacts Verif.WriterTotal Verif.PropsWriter
  Verif.WriterNodes Verif.PropsRound Verif.Samples.
Import ListNotations.
Local Open Scope list_scope.

(** ** Specification *)

(** The byte at an offset of a file. *)
Definition byte_at (i : N) (data : list byte) : option byte := nth_error data (N.to_nat i).

Section WithEnv.
Context {env : Env}.

(** The offsets at which the headers of the open nodes begin (innermost first). *)
Fixpoint header_offsets (ver : N) (ns : list node) (l : list oframe) : list N :=
  match l with [] => [] | _ :: t => lenN (enc_frames ver ns t) :: header_offsets ver ns t end.
Definition open_headers (ver : N) (d : odoc) : list N := header_offsets ver (od_nodes d) (od_frames d).

(** An offset that is not in one of the three numbers in the header of an open node. *)
Definition settled (ver : N) (d : odoc) (i : N) : Prop :=
  forall h, In h (open_headers ver d) -> (i < h \/ h + 3 * N.of_nat (width ver) <= i)%N.

(** ** Proofs *)
Definition keeps (ver : N) (d d' : odoc) : Prop :=
  (lenN (enc_open ver d) <= lenN (enc_open ver d'))%N /\
  (forall h, In h (open_headers ver d') -> In h (open_headers ver d) \/ (lenN (enc_open ver d) <= h)%N) /\
  forall i, (i < lenN (enc_open ver d))%N -> settled ver d i -> byte_at i (enc_open ver d') = byte_at i (enc_open ver d).

Lemma keeps_refl : forall ver d, keeps ver d d.
Proof. intros ver d. split; [lia|]. split; auto. Qed.
Lemma keeps_trans : forall ver a b c, keeps ver a b -> keeps ver b c -> keeps ver a c.
Proof.
  intros ver a b c (L1 & H1 & B1) (L2 & H2 & B2). split; [lia|]. split.
  - intros h Hh. destruct (H2 h Hh) as [X|X]; [|right; lia]. apply H1. exact X.
  - intros i Li S. rewrite B2; [apply B1; assumption|lia|]. intros h Hh. destruct (H1 h Hh) as [X|X]; [apply S; exact X|left; lia].
Qed.

Lemma byte_at_app : forall i a b, (i < lenN a)%N -> byte_at i (a ++ b) = byte_at i a.
Proof. intros i a b H. unfold byte_at. apply nth_error_app1. unfold lenN in H. lia. Qed.
Lemma byte_at_app2 : forall i a b, (lenN a <= i)%N -> byte_at i (a ++ b) = byte_at (i - lenN a) b.
Proof. intros i a b H. unfold byte_at. rewrite nth_error_app2 by (unfold lenN in H; lia). f_equal. unfold lenN. lia. Qed.

Lemma add_attrs_leaf : forall l ns name atts t, exists more, add_attrs l (mkOD ns (mkOF name atts [] :: t)) = mkOD ns (mkOF name (atts ++ more) [] :: t).
Proof.
  induction l as [|c l IH]; intros ns name atts t; [exists []; rewrite app_nil_r; reflexivity|]. cbn [add_attrs]. destruct (attr_of c) as [a|]; [|apply IH].
  unfold add_attr. cbn [od_frames od_nodes of_name of_atts of_kids]. destruct (IH ns name (atts ++ [a]) t) as [m E]. exists (a :: m). rewrite E, <- app_assoc. reflexivity.
Qed.

Lemma enc_nodes_snoc : forall ver l off n, enc_nodes ver off (l ++ [n]) = enc_nodes ver off l ++ enc_node ver (off + nodes_size ver l) n.
Proof.
  intros ver. induction l as [|x l IH]; intros off n; cbn [app enc_nodes].
  - rewrite app_nil_r. cbn. rewrite N.add_0_r. reflexivity.
  - rewrite IH, nodes_size_cons, <- app_assoc, N.add_assoc. reflexivity.
Qed.
Lemma enc_add_node : forall ver n d, enc_open ver (add_node n d) = enc_open ver d ++ enc_node ver (lenN (enc_open ver d)) n.
Proof.
  intros ver n [ns [|f t]]; unfold add_node, enc_open; cbn [od_frames od_nodes enc_frames].
  - pose proof (enc_base_len ver ns) as L. cbn [enc_frames] in L. rewrite L, enc_nodes_snoc, <- !app_assoc. reflexivity.
  - rewrite <- app_assoc. f_equal. rewrite lenN_app, enc_frame_len. unfold enc_frame at 1 2. cbn [of_name of_atts of_kids]. rewrite enc_nodes_snoc, <- !app_assoc. do 5 f_equal. lia.
Qed.

Lemma call_keeps : forall ver c d, keeps ver d (doc_call c d).
Proof.
  intros ver [name attrs|] d; cbn [doc_call].
  - unfold open_node. destruct (add_attrs_leaf attrs (od_nodes d) name [] (od_frames d)) as [m ->]. cbn [app]. unfold keeps, open_headers, enc_open. cbn [od_nodes od_frames enc_frames header_offsets]. split; [rewrite lenN_app; lia|]. split.
    + intros h [<-|H]; [right; lia|left; exact H].
    + intros i Li _. apply byte_at_app. exact Li.
  - destruct d as [ns [|f t]]; unfold close_open; cbn [od_frames od_nodes]; [apply keeps_refl|].
    assert (E0 : enc_open ver (mkOD ns (f :: t)) = enc_open ver (mkOD ns t) ++ enc_frame ver (lenN (enc_open ver (mkOD ns t))) f) by reflexivity.
    assert (H0 : open_headers ver (add_node (frame_node f) (mkOD ns t)) = open_headers ver (mkOD ns t)) by (destruct t as [|g t]; reflexivity).
    set (b := enc_open ver (mkOD ns t)) in *. unfold keeps. rewrite enc_add_node, E0, H0. fold b.
    assert (X : exists hd z rest m, enc_node ver (lenN b) (frame_node f) = hd ++ rest ++ m /\ enc_frame ver (lenN b) f = z ++ rest /\ lenN hd = (3 * N.of_nat (width ver))%N /\ lenN z = lenN hd).
    { unfold frame_node, enc_frame, placeholder. rewrite enc_node_eq.
      exists (le_enc (width ver) (lenN b + node_size ver (Node (of_name f) (of_atts f) (of_kids f))) ++ le_enc (width ver) (lenN (of_atts f)) ++ le_enc (width ver) (lenN (enc_attrs (of_atts f)))), (zeros (3 * width ver)).
      exists ([Nb (lenN (of_name f))] ++ of_name f ++ enc_attrs (of_atts f) ++ enc_nodes ver (lenN b + header_size ver + lenN (of_name f) + lenN (enc_attrs (of_atts f))) (of_kids f)), (marker ver (of_atts f) (of_kids f)).
      split; [rewrite <- !app_assoc; reflexivity|]. split; [rewrite <- !app_assoc; reflexivity|].
      rewrite !lenN_app, !le_enc_lenN. unfold zeros, lenN. rewrite repeat_length. lia. }
    destruct X as (hd & z & rest & m & -> & -> & LH & LZ). split; [rewrite !lenN_app; lia|]. split; [intros h Hh; left; right; exact Hh|].
    intros i Li S. destruct (S (lenN b) (or_introl eq_refl)) as [X|X]; [rewrite !byte_at_app by exact X; reflexivity|].
    rewrite (byte_at_app2 i b (hd ++ _)), (byte_at_app2 i b (z ++ _)), (byte_at_app2 _ hd), (byte_at_app2 _ z), LZ by lia. apply byte_at_app. rewrite !lenN_app in Li. lia.
Qed.
Lemma calls_keep : forall ver l d, keeps ver d (doc_calls l d).
Proof.
  intros ver l. induction l as [|c l IH]; intros d; [apply keeps_refl|]. cbn [doc_calls fold_left]. eapply keeps_trans; [apply call_keeps|apply IH].
Qed.
Lemma doc_calls_app : forall l l2 d, doc_calls (l ++ l2) d = doc_calls l2 (doc_calls l d).
Proof. intros. unfold doc_calls. apply fold_left_app. Qed.

(** ** The theorems *)

(** A client makes the calls [l] and then the calls [l2].  The calls [l2] change no byte before
    the position reached with [l], except the numbers in the headers of the nodes that were open. *)
Theorem C91_stays : forall k ver l l2 s s2, wrote k ver l s -> wrote k ver (l ++ l2) s2 ->
  (k_pos (w_sink s) <= k_pos (w_sink s2))%N /\
  forall i, (i < k_pos (w_sink s))%N -> settled ver (doc_calls l odoc_start) i -> byte_at i (k_data (w_sink s2)) = byte_at i (k_data (w_sink s)).
Proof.
  intros k ver l l2 s s2 W W2. destruct (C27_layout _ _ _ _ W) as [D P], (C27_layout _ _ _ _ W2) as [D2 P2]. cbv zeta in *. rewrite doc_calls_app in *.
  destruct (calls_keep ver l2 (doc_calls l odoc_start)) as (L & _ & B). rewrite P, P2. split; [exact L|]. intros i Li S. rewrite D, D2, !byte_at_app by lia. apply B; assumption.
Qed.

(** [finalize] changes no byte of the nodes: what was there stays in the finished file. *)
Theorem C91_finished : forall k ver l l2 s f k', wrote k ver l s -> finished k ver (l ++ l2) f k' ->
  (k_pos (w_sink s) <= k_pos k')%N /\
  forall i, (i < k_pos (w_sink s))%N -> settled ver (doc_calls l odoc_start) i -> byte_at i (k_data k') = byte_at i (k_data (w_sink s)).
Proof.
  intros k ver l l2 s f k' W [_ _ (s2 & fl & s' & W2 & HF)]. destruct (C27_layout _ _ _ _ W) as [D P], (C27_finished _ _ _ _ _ _ _ _ W2 HF) as (ED & D2 & P2). cbv zeta in *.
  rewrite doc_calls_app in *. destruct (calls_keep ver l2 (doc_calls l odoc_start)) as (L & _ & B).
  assert (E : exists x, enc_finished ver (od_nodes (doc_calls l2 (doc_calls l odoc_start))) f = enc_open ver (doc_calls l2 (doc_calls l odoc_start)) ++ x).
  { unfold enc_open. rewrite ED. cbn [enc_frames]. unfold enc_finished. eexists. rewrite <- !app_assoc. reflexivity. }
  destruct E as [x E]. rewrite E in *. rewrite P, P2, lenN_app. split; [lia|].
  intros i Li S. rewrite D, D2, <- app_assoc, !byte_at_app by lia. apply B; assumption.
Qed.

(** While no node is open, the file so far is the beginning of every file that can come of it. *)
Theorem C91_prefix : forall k ver l l2 s f k', wrote k ver l s -> od_frames (doc_calls l odoc_start) = [] -> finished k ver (l ++ l2) f k' ->
  firstn (N.to_nat (k_pos (w_sink s))) (k_data k') = firstn (N.to_nat (k_pos (w_sink s))) (k_data (w_sink s)).
Proof.
  intros k ver l l2 s f k' W E F. destruct (C91_finished _ _ _ _ _ _ _ W F) as [_ B].
  assert (X : forall n (a b : list byte), (forall i, (i < n)%nat -> nth_error a i = nth_error b i) -> firstn n a = firstn n b).
  { induction n as [|n IH]; intros a b H; [reflexivity|]. pose proof (H O ltac:(lia)) as H0. destruct a as [|x a], b as [|y b]; try discriminate; [reflexivity|]. injection H0 as <-. cbn [firstn]. f_equal.
    apply IH. intros i Hi. apply (H (S i)). lia. }
  apply X. intros i Hi. specialize (B (N.of_nat i) ltac:(lia)). unfold byte_at in B. rewrite Nat2N.id in B. apply B. intros h. unfold open_headers. rewrite E. intros [].
Qed.
End WithEnv.

(** ** Concrete cases *)
Module SettledCases.
Import PropsWriter.Cases RoundCases.
Definition sink0 : sink := mkSink [] 0 [] [] None.
Definition state (l : list wcall) : wstate :=
  match new_writer sink0 7400 with Ok s => snd (run_wcalls (env := release) l s) | _ => mkW sink0 0 [] end.
Definition file : sink := match finalize false default_footer (state calls0) with (Ok k, _) => k | _ => sink0 end.
Lemma state_wrote : forall n, In n [3; 6; length calls0]%nat -> wrote (env := release) sink0 7400 (firstn n calls0) (state (firstn n calls0)).
Proof.
  intros n H. cbn [In length calls0] in H. decompose [or] H; subst; try contradiction; constructor;
    try (eexists; eexists; split; [vm_compute; reflexivity|]; split; [vm_compute; reflexivity|]; repeat (constructor; auto); fail);
    repeat constructor; vm_compute; try reflexivity; try (split; intro; discriminate); discriminate.
Qed.
Lemma file_finished : finished (env := release) sink0 7400 calls0 default_footer file.
Proof.
  constructor; [repeat split|vm_compute; reflexivity|]. exists (state calls0), false, (snd (finalize false default_footer (state calls0))). split; [|vm_compute; reflexivity].
  apply (state_wrote (length calls0)). cbn [In]. auto.
Qed.
(** After three calls the first node is open, with its header at 27: byte 40, in its name, stays;
    byte 27, in its header, does not. *)
Example settled_ex : wrote (env := release) sink0 7400 (firstn 3 calls0) (state (firstn 3 calls0)) /\
  finished (env := release) sink0 7400 (firstn 3 calls0 ++ skipn 3 calls0) default_footer file /\
  open_headers (env := release) 7400 (doc_calls (firstn 3 calls0) odoc_start) = [27%N] /\
  settled (env := release) 7400 (doc_calls (firstn 3 calls0) odoc_start) 40 /\ (40 < k_pos (w_sink (state (firstn 3 calls0))))%N /\
  byte_at 27 (k_data file) <> byte_at 27 (k_data (w_sink (state (firstn 3 calls0)))).
Proof.
  split; [apply state_wrote; cbn [In]; auto|]. split; [rewrite firstn_skipn; exact file_finished|].
  assert (E : open_headers (env := release) 7400 (doc_calls (firstn 3 calls0) odoc_start) = [27%N]) by (vm_compute; reflexivity). split; [exact E|].
  split; [unfold settled; rewrite E; intros h [<-|[]]; right; vm_compute; discriminate|]. split; vm_compute; [reflexivity|discriminate].
Qed.
(** After the first node is closed, no node is open. *)
Example prefix_ex : exists n, wrote (env := release) sink0 7400 (firstn n calls0) (state (firstn n calls0)) /\
  od_frames (doc_calls (firstn n calls0) odoc_start) = [] /\ (27 < k_pos (w_sink (state (firstn n calls0))))%N /\ (length (skipn n calls0) > 0)%nat.
Proof.
  exists 6%nat. split; [apply state_wrote; cbn [In]; auto|]. split; [vm_compute; reflexivity|]. split; [vm_compute; reflexivity|]. cbn. lia.
Qed.
End SettledCases.

Print Assumptions C91_stays.
Print Assumptions C91_finished.
Print Assumptions C91_prefix.
