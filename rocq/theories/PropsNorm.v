(** C68: loading a document and writing it again. *)
Require Import Coq.Lists.List Coq.NArith.NArith Coq.Bool.Bool Coq.micromega.Lia.
Require Import Verif.Base Verif.BaseFacts Verif.Utf8 Verif.Types Verif.Io Verif.Parser Verif.Zlib Verif.Spec Verif.Loaders Verif.LoadTyped Verif.ParserPos.
Require Import Verif.Writer Verif.WriterSpec Verif.PropsWriter Verif.PropsRound Verif.Tree Verif.TreeFacts Verif.TreeSpec Verif.TreeOps Verif.TreePaths Verif.PropsTree Verif.PropsTreeEq.
Require Import Verif.TreeIo Verif.TreeIoSpec Verif.TreeLoad Verif.TreeWrite Verif.TreeRound Verif.WriterNodes Verif.WriterTotal Verif.IoFacts Verif.IoFacts Verif.PropsTreeIo Verif.PropsAnyTree Verif.Samples.
Import ListNotations.
Local Open Scope nat_scope.

Section WithEnv.
Context {env : Env}.

(** A tree that was loaded, from any bytes through any reader: it has no cycle, its root has
    the empty name and no attributes, and all names below are UTF-8, all numbers in the range of
    their types. *)
Theorem C68_loaded : forall data sched seeks seekable v t f, any_tree (mkStream data 0 sched seeks) seekable = Ok (v, t, f) ->
  grown t /\ attributes t (tr_root t) = Some [] /\ exists ds, doc_at t (tr_root t) (DNode [] [] ds) /\ Forall doc_typed ds.
Proof.
  intros data sched seeks seekable v t f H. destruct (any_tree_open _ _ _ _ _ _ _ H) as (p & items & s & E & _ & L & R).
  destruct (C33_reads_load _ _ _ _ _ _ (open_as_opened _ _ _ _ _ _ E) _ _ _ R) as (r & L' & M). rewrite L' in L. cbn [fst] in L. subst r.
  cbn [load_matches] in M. destruct M as (t' & ds & [= <-] & I & G & D). split; [exact G|]. split; [inversion D; assumption|].
  exists ds. split; [exact D|]. apply items_typed. rewrite <- I. apply (reads_typed _ _ _ _ R).
Qed.

Lemma written_bytes : forall t k ver f k' ds ats, grown t -> Forall doc_typed ds -> doc_at t (tr_root t) (DNode [] ats ds) -> tree_written t k ver f k' ->
  k_data k' = enc_finished ver (map plain_node ds) f ++ dropN (lenN (enc_finished ver (map plain_node ds) f)) (k_data k).
Proof.
  intros t k ver f k' ds ats G T D (fl & s0 & s1 & s2 & E0 & E1 & E2).
  rewrite (C32_calls _ _ _ s0 G D) in E1. destruct (try_wcalls_ok _ _ _ E1) as (rs & ER & FR).
  assert (TY : Forall wcall_typed (calls_of_all (map plain_node ds)) /\ Forall wfaithful (calls_of_all (map plain_node ds))).
  { clear - T. induction T as [|d ds K _ IH]; [split; constructor|].
    destruct (plain_typed _ K), IH. unfold calls_of_all in *. cbn [map flat_map]. split; apply Forall_app; auto. }
  assert (W : wrote k ver (calls_of_all (map plain_node ds)) s1).
  { destruct TY. constructor; auto. exists s0, rs. split; [exact E0|]. split; [exact ER|]. eapply Forall_impl; [|exact FR]. auto. }
  destruct (C27_finished _ _ _ _ _ _ _ _ W E2) as (_ & B & _). change (od_nodes (doc_calls (calls_of_all (map plain_node ds)) odoc_start)) with (nodes_of (calls_of_all (map plain_node ds))) in B.
  rewrite (nodes_of_all _ (plains_zips ds)) in B. exact B.
Qed.
Lemma root_doc : forall t, grown t -> exists ats ds, doc_at t (tr_root t) (DNode [] ats ds).
Proof.
  intros t G. destruct (C38_document_exists t (tr_root t) G (wf_root _ (built_wf _ (grown_built _ G)))) as [d D].
  inversion D as [i0 nm0 ats0 ks0 HN1 HA1 HK1]; subst. rewrite (root_name _ (grown_built _ G)) in HN1. injection HN1 as <-. eauto.
Qed.

(** Trees that compare equal are written to the same bytes (with the same version and footer,
    to sinks holding the same data before). *)
Theorem C68_equal_trees_equal_bytes : forall t u k1 k2 ver f k1' k2', grown t -> grown u -> tree_typed t ->
  tree_strict_eq t u = Some true -> k_data k1 = k_data k2 ->
  tree_written t k1 ver f k1' -> tree_written u k2 ver f k2' -> k_data k1' = k_data k2'.
Proof.
  intros t u k1 k2 ver f k1' k2' GT GU T Q EK W1 W2. destruct (root_doc t GT) as (a & ds & D). destruct (root_doc u GU) as (b & es & E).
  destruct (C38_tree_strict_eq_partial t u _ _ GT GU D E) as (x & EX & X). rewrite EX in Q. injection Q as ->. destruct X as [X _]. specialize (X eq_refl). injection X as <- <-.
  assert (TD : Forall doc_typed ds) by (pose proof (typed_doc _ T _ _ D) as Y; inversion Y; assumption).
  rewrite (written_bytes _ _ _ _ _ _ _ GT TD D W1), (written_bytes _ _ _ _ _ _ _ GU TD E W2), EK. reflexivity.
Qed.

(** And only those: files with the same bytes were written from equal trees, with the same
    version. (The attributes of the root are not written, see C32.) *)
Theorem C68_equal_bytes_equal_trees : forall t u k1 k2 ver1 ver2 f1 f2 k1' k2', zlib_roundtrip env ->
  grown t -> grown u -> tree_typed t -> tree_typed u -> attributes t (tr_root t) = Some [] -> attributes u (tr_root u) = Some [] ->
  wfooter_typed f1 -> standard f1 -> wfooter_typed f2 -> standard f2 -> (lenN (k_data k1') < pow2_64)%N ->
  tree_written t k1 ver1 f1 k1' -> tree_written u k2 ver2 f2 k2' -> k_data k1' = k_data k2' ->
  ver1 = ver2 /\ tree_strict_eq t u = Some true.
Proof.
  intros t u k1 k2 ver1 ver2 f1 f2 k1' k2' HZ GT GU T U RT RU F1 S1 F2 S2 L W1 W2 E.
  destruct (root_doc t GT) as (a & ds & D). destruct (root_doc u GU) as (b & es & DE).
  assert (a = []) by (inversion D; congruence). assert (b = []) by (inversion DE; congruence). subst a b.
  assert (TD : Forall doc_typed ds) by (pose proof (typed_doc _ T _ _ D) as Y; inversion Y; assumption).
  assert (TE : Forall doc_typed es) by (pose proof (typed_doc _ U _ _ DE) as Y; inversion Y; assumption).
  destruct (round_trip_doc _ _ _ _ _ _ HZ GT TD D F1 S1 W1 L [] [] true eq_refl eq_refl) as (t' & Et & _ & Dt & _).
  rewrite E in L, Et. destruct (round_trip_doc _ _ _ _ _ _ HZ GU TE DE F2 S2 W2 L [] [] true eq_refl eq_refl) as (u' & Eu & _ & Du & _).
  rewrite Et in Eu. injection Eu as -> <- _. pose proof (C38_document_unique _ _ _ _ Dt Du) as X. injection X as ->.
  split; [reflexivity|]. destruct (C38_tree_strict_eq_partial t u _ _ GT GU D DE) as (x & EX & X). rewrite EX. f_equal. apply X. reflexivity.
Qed.

(** Whatever bytes a tree was loaded from, and whatever version and (standard) footer it is
    written with: if writing succeeds, loading what was written gives an equal tree, and writing
    that gives the same bytes again. *)
Theorem C68_rewrite : forall data sched seeks seekable v t f0 k ver f k', zlib_roundtrip env ->
  any_tree (mkStream data 0 sched seeks) seekable = Ok (v, t, f0) ->
  wfooter_typed f -> standard f -> tree_written t k ver f k' -> (lenN (k_data k') < pow2_64)%N ->
  forall sched' seeks' seekable', nofail sched' = true -> noseekfail seeks' = true ->
  exists u ft, any_tree (mkStream (k_data k') 0 sched' seeks') seekable' = Ok (ver, u, inr ft) /\
    tree_strict_eq t u = Some true /\
    forall k2 k2', k_data k2 = k_data k -> tree_written u k2 ver f k2' -> k_data k2' = k_data k'.
Proof.
  intros data sched seeks seekable v t f0 k ver f k' HZ L TF SF W LK sched' seeks' seekable' HN HS.
  destruct (C68_loaded _ _ _ _ _ _ _ L) as (G & _ & ds & D & TD).
  destruct (round_trip_doc _ _ _ _ _ _ HZ G TD D TF SF W LK _ _ seekable' HN HS) as (u & EU & GU & DU & Q).
  exists u; eexists. split; [exact EU|]. split; [exact Q|].
  intros k2 k2' EK W2. rewrite (written_bytes _ _ _ _ _ _ _ G TD D W), (written_bytes _ _ _ _ _ _ _ GU TD DU W2), EK. reflexivity.
Qed.
End WithEnv.

(** ** Example: the sample document of version 7400, which has a compressed array, loaded and
    written as version 7500. *)
Module NormCases.
Import TreeIoCases.
Definition sample_tree : tree := Eval vm_compute in
  match any_tree (env:=release) (mkStream (sample_doc 7400) 0 [AChunk 5; AIntr] []) false with Ok (_, t, _) => t | _ => mtree end.
Definition first_file : sink := Eval vm_compute in match written sample_tree 7500 with Some k => k | None => k0 end.
Definition second_tree : tree := Eval vm_compute in
  match any_tree (env:=release) (mkStream (k_data first_file) 0 [] []) true with Ok (_, t, _) => t | _ => mtree end.
Example rewrite_ex : (exists f0, any_tree (env:=release) (mkStream (sample_doc 7400) 0 [AChunk 5; AIntr] []) false = Ok (7400%N, sample_tree, f0)) /\
  tree_written (env:=release) sample_tree k0 7500 default_footer first_file /\ (lenN (k_data first_file) < pow2_64)%N /\
  tree_strict_eq sample_tree second_tree = Some true /\ length (tr_arena second_tree) = 5 /\
  option_map k_data (written second_tree 7500) = Some (k_data first_file).
Proof.
  split; [eexists; vm_compute; reflexivity|]. split; [apply written_written; vm_compute; reflexivity|].
  split; [vm_compute; reflexivity|]. split; [vm_compute; reflexivity|]. split; [vm_compute; reflexivity|]. vm_compute. reflexivity.
Qed.
End NormCases.

Print Assumptions C68_loaded.
Print Assumptions C68_equal_trees_equal_bytes.
Print Assumptions C68_equal_bytes_equal_trees.
Print Assumptions C68_rewrite.
