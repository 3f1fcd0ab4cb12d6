(** C72: what was loaded can be written again. *)
Require Import Coq.Lists.List Coq.NArith.NArith Coq.ZArith.ZArith Coq.Bool.Bool Coq.micromega.Lia.
Require Import Verif.Base Verif.BaseFacts Verif.Utf8 Verif.Types Verif.Zlib Verif.Io Verif.IoFacts Verif.Parser Verif.Loaders Verif.Spec Verif.SpecFacts Verif.ParserPos Verif.Writer Verif.WriterSpec Verif.WriterFacts Verif.WriterTotal Verif.PropsWriter Verif.WriterNodes Verif.TreeWrite Verif.TreeRound Verif.Samples Verif.FooterFacts Verif.LayoutIn Verif.PropsSink Verif.PropsRound Verif.Tree Verif.TreeFacts Verif.TreeSpec Verif.PropsTreeEq Verif.PropsTree Verif.TreeIo Verif.TreeIoSpec Verif.PropsTreeIo Verif.PropsAnyTree Verif.LoadTyped Verif.LoadSize Verif.PropsNorm.
Import ListNotations.
Local Open Scope nat_scope.

(** All attribute values of a document. *)
Fixpoint doc_values (d : dnode) : list aval := match d with DNode _ ats ks => ats ++ flat_map doc_values ks end.
(** The bytes that the elements of its arrays take, uncompressed. *)
Definition arrays_bytes (ds : list dnode) : N := sumN (map array_bytes (flat_map doc_values ds)).

Section WithEnv.
Context {env : Env}.

Lemma sumN_app : forall a b, sumN (a ++ b) = (sumN a + sumN b)%N.
Proof. intros a b. unfold sumN. rewrite fold_right_app. fold (sumN b). induction a as [|x a IH]; cbn [fold_right]; [reflexivity|]. lia. Qed.
Lemma sumN_cons : forall x l, sumN (x :: l) = (x + sumN l)%N.
Proof. reflexivity. Qed.

Lemma lenN_map : forall A B (f : A -> B) l, lenN (map f l) = lenN l.
Proof. intros. unfold lenN. rewrite map_length. reflexivity. Qed.
Lemma concat_bytes : forall A (f : A -> list byte) k l, (forall x, lenN (f x) = k) -> lenN (concat (map f l)) = (k * lenN l)%N.
Proof. intros A f k l H. induction l as [|x l IH]; [cbn; unfold lenN; cbn; lia|]. cbn [map concat]. rewrite lenN_app, H, IH, lenN_cons. lia. Qed.

(** A value written without compression. *)
Lemma plain_size : forall v, lenN (enc_attr (mkAttr v false)) = (core_bytes v + array_bytes v)%N.
Proof.
  intros v. unfold enc_attr. cbn [at_val at_zip]. rewrite lenN_cons.
  destruct v; cbn [array_raw array_payload core_bytes array_bytes]; rewrite ?lenN_app, ?le_enc_lenN, ?i_enc_lenN; try reflexivity;
    rewrite ?(concat_bytes _ _ 1), ?(concat_bytes _ _ 4), ?(concat_bytes _ _ 8) by (intros; rewrite ?i_enc_lenN, ?le_enc_lenN; reflexivity); lia.
Qed.
Lemma plains_size : forall ats, lenN (enc_attrs (map (fun v => mkAttr v false) ats)) = (sumN (map core_bytes ats) + sumN (map array_bytes ats))%N.
Proof.
  induction ats as [|v ats IH]; [reflexivity|]. unfold enc_attrs in *. cbn [map flat_map]. rewrite lenN_app, plain_size, IH, !sumN_cons. lia.
Qed.
Lemma enc_attrs_count : forall ats, (lenN ats <= lenN (enc_attrs ats))%N.
Proof. induction ats as [|a ats IH]; [cbn; lia|]. unfold enc_attrs in *. cbn [flat_map]. rewrite lenN_app, lenN_cons. unfold enc_attr at 1. rewrite lenN_cons. lia. Qed.

(** A document takes little more space than what was read of it. *)
Definition grows (ver : N) : N := if (ver <? 7500)%N then 2 else 4.
Lemma node_grows : forall ver d, (node_size ver (plain_node d) <= grows ver * sumN (map item_core (dnode_items d)) + sumN (map array_bytes (doc_values d)))%N.
Proof.
  intros ver d. induction d as [nm ats ks IH] using dnode_ind'. cbn [plain_node]. rewrite node_size_eq, plains_size.
  cbn [dnode_items doc_values]. rewrite !map_app, !sumN_app. cbn [map]. rewrite sumN_cons, map_app, sumN_app. cbn [item_core map sumN fold_right].
  assert (K : (nodes_size ver (map plain_node ks) <= grows ver * sumN (map item_core (flat_map dnode_items ks)) + sumN (map array_bytes (flat_map doc_values ks)))%N).
  { clear - IH. induction IH as [|k ks Hk _ IHk]; [cbn; lia|]. cbn [map flat_map]. rewrite nodes_size_cons, !map_app, !sumN_app. lia. }
  assert (M : (header_size ver + marker_size ver (map (fun v => mkAttr v false) ats) (map plain_node ks) <= grows ver * 13)%N).
  { unfold marker_size, header_size, width, grows. destruct (needs_marker _ _), (ver <? 7500)%N; lia. }
  assert (G : (2 <= grows ver)%N) by (unfold grows; destruct (ver <? 7500)%N; lia). nia.
Qed.
Lemma forest_grows : forall ver ds, (nodes_size ver (map plain_node ds) <= grows ver * sumN (map item_core (forest_items ds)) + arrays_bytes ds)%N.
Proof.
  intros ver ds. unfold forest_items, arrays_bytes. induction ds as [|d ds IH]; [cbn; lia|]. cbn [map flat_map]. rewrite nodes_size_cons, !map_app, !sumN_app. pose proof (node_grows ver d). lia.
Qed.

(** Counts and lengths fit if the whole does. *)
Lemma u_ok_le : forall k n m, u_ok k m -> (n <= m)%N -> u_ok k n.
Proof. unfold u_ok. intros. lia. Qed.
Lemma size_counts : forall ver n, u_ok (width ver) (node_size ver n) -> counts_ok ver n.
Proof.
  intros ver n. induction n as [name ats kids IH] using node_ind2. intros H. apply counts_ok_eq. rewrite node_size_eq in H. pose proof (enc_attrs_count ats).
  split; [apply (u_ok_le _ _ _ H); lia|]. split; [apply (u_ok_le _ _ _ H); lia|].
  assert (K : u_ok (width ver) (nodes_size ver kids)) by (apply (u_ok_le _ _ _ H); lia). clear H.
  induction IH as [|k kids Hk _ IHk]; constructor; rewrite nodes_size_cons in K; [apply Hk|apply IHk]; apply (u_ok_le _ _ _ K); lia.
Qed.
Lemma sizes_counts : forall ver l, u_ok (width ver) (nodes_size ver l) -> Forall (counts_ok ver) l.
Proof.
  intros ver l K. induction l as [|k l IH]; constructor; rewrite nodes_size_cons in K; [apply size_counts|apply IH]; apply (u_ok_le _ _ _ K); lia.
Qed.

(** Names and values. *)
Definition small (v : aval) : Prop := (array_bytes v < 2 ^ 32)%N.
Lemma plain_attr_ok : forall v, val_ok v -> core_fits v -> small v -> attr_ok (mkAttr v false).
Proof.
  intros v T C S. split; [exact T|]. unfold attr_fits, small in *. cbn [at_val at_zip].
  destruct v; cbn [array_raw array_bytes core_fits array_payload] in *; try exact I; try exact C;
    rewrite lenN_map, ?(concat_bytes _ _ 1), ?(concat_bytes _ _ 4), ?(concat_bytes _ _ 8) by (intros; rewrite ?i_enc_lenN, ?le_enc_lenN; reflexivity);
    unfold u_ok; change (2 ^ (8 * N.of_nat 4))%N with (2 ^ 32)%N; lia.
Qed.
Lemma plain_ok : forall d, doc_typed d -> Forall item_small (dnode_items d) -> Forall small (doc_values d) -> node_ok (plain_node d).
Proof.
  induction d as [nm ats ks IH] using dnode_ind'. intros T I S. cbn [plain_node]. apply node_ok_eq. inversion T as [? ? ? T1 T2 T3]; subst.
  cbn [dnode_items doc_values] in *. apply Forall_cons_iff in I. destruct I as [[I1 I2] I3]. apply Forall_app in I3. destruct I3 as [I3 _].
  apply Forall_app in S. destruct S as [S1 S2]. split; [exact T1|]. split; [exact I1|]. split.
  - clear - T2 I2 S1. induction ats as [|v ats IHa]; [constructor|]. apply Forall_cons_iff in T2, I2, S1. destruct T2, I2, S1. cbn [map]. constructor; [apply plain_attr_ok|]; auto.
  - clear - IH T3 I3 S2. induction IH as [|k ks Hk _ IHk]; [constructor|]. apply Forall_cons_iff in T3. cbn [flat_map] in *. apply Forall_app in I3, S2. destruct T3, I3, S2.
    cbn [map]. constructor; auto.
Qed.
Lemma plains_ok : forall ds, Forall doc_typed ds -> Forall item_small (forest_items ds) -> Forall small (flat_map doc_values ds) -> Forall node_ok (map plain_node ds).
Proof.
  unfold forest_items. induction ds as [|d ds IH]; intros T I S; [constructor|]. apply Forall_cons_iff in T. cbn [flat_map] in *. apply Forall_app in I, S. destruct T, I, S.
  cbn [map]. constructor; [apply plain_ok|]; auto.
Qed.

Lemma finished_len : forall ver ns f, wfooter_typed f -> (lenN (enc_finished ver ns f) <= nodes_size ver ns + 1000)%N.
Proof.
  intros ver ns f (T1 & T2 & T3). unfold enc_finished, enc_wfooter.
  rewrite !lenN_app, enc_nodes_len', end_marker_len, !le_enc_lenN.
  assert (F : forall o d k, length d = k -> match o with Some l => length l = k | None => True end -> lenN (footer_field o d) = N.of_nat k) by (intros [l|] d k A B; unfold footer_field, lenN; congruence).
  rewrite (F _ spec_default1 16), (F _ (zeros 4) 4), (F _ spec_trailer 16); auto.
  assert (Z : forall n, lenN (zeros n) = N.of_nat n) by (intros n; unfold zeros, lenN; rewrite repeat_length; reflexivity). rewrite !Z.
  match goal with |- context [footer_pad f ?p] => assert (P : (footer_pad f p < 256)%N) end.
  { unfold footer_pad. destruct (wf_padding f) as [|b]; [match goal with |- context [spec_pad ?p] => pose proof (spec_pad_lt p) end; lia|apply bN_lt]. }
  change (lenN spec_magic) with 23%N. assert (H : (header_size ver <= 25)%N) by (unfold header_size, width; destruct (ver <? 7500)%N; lia). lia.
Qed.

(** What was loaded is not larger than the file, arrays apart. *)
Lemma loaded_size : forall data sched seeks seekable v t f ds, any_tree (mkStream data 0 sched seeks) seekable = Ok (v, t, f) ->
  doc_at t (tr_root t) (DNode [] [] ds) ->
  (27 + sumN (map item_core (forest_items ds)) <= lenN data)%N /\ Forall item_small (forest_items ds) /\ Forall doc_typed ds /\ grown t.
Proof.
  intros data sched seeks seekable v t f ds H D0. destruct (any_tree_open _ _ _ _ _ _ _ H) as (p & items & s & E & _ & L & R).
  pose proof (open_as_opened _ _ _ _ _ _ E) as Ho.
  destruct (C33_reads_load _ _ _ _ _ _ Ho _ _ _ R) as (r & L' & M). rewrite L' in L. cbn [fst] in L. subst r.
  cbn [load_matches] in M. destruct M as (t' & ds' & [= <-] & I & G & D).
  pose proof (C38_document_unique _ _ _ _ D0 D) as X. injection X as <-. rewrite <- I.
  pose proof (reads_costs _ _ _ _ R) as [C S]. destruct (opened_init _ _ _ _ _ _ Ho) as (_ & _ & _ & _ & _ & _ & _ & _ & _ & _ & RM & _ & LD).
  unfold LayoutIn.rem in C. rewrite RM, lenN_dropN in C. split; [lia|]. split; [exact S|]. split; [|exact G].
  apply items_typed. rewrite <- I. apply (reads_typed _ _ _ _ R).
Qed.

(** A tree loaded from any bytes, by any reader, can be written in every supported version if
    the sink does not fail, each array fits the 32-bit length of its header, and the document is
    not too large: before version 7500, twice the size of the file and the bytes of the arrays
    must stay below 4 GiB.  (The tree writer does not compress; [ds] is the document in the tree.) *)
Theorem C72_can_be_rewritten : forall data sched seeks seekable v t f0 ds k ver f fl,
  any_tree (mkStream data 0 sched seeks) seekable = Ok (v, t, f0) ->
  doc_at t (tr_root t) (DNode [] [] ds) ->
  (7000 <= ver <= 7999)%N ->
  Forall (fun a => array_bytes a < 2 ^ 32)%N (flat_map doc_values ds) ->
  (ver < 7500 -> 2 * lenN data + arrays_bytes ds < 2 ^ 32)%N ->
  (4 * lenN data + arrays_bytes ds < 2 ^ 62)%N ->
  wgood k -> (fl = true -> k_flush k = None) -> (lenN (k_data k) < pow2_63)%N -> wfooter_typed f ->
  exists s0 s1 k' s2, new_writer k ver = Ok s0 /\ write_tree t s0 = (Ok tt, s1) /\ finalize fl f s1 = (Ok k', s2) /\
    (lenN (k_data k') < pow2_64)%N.
Proof.
  intros data sched seeks seekable v t f0 ds k ver f fl H D V S B1 B2 GK HF LK TF.
  destruct (loaded_size _ _ _ _ _ _ _ _ H D) as (C & IS & TD & G).
  pose proof (forest_grows ver ds) as Gr. pose proof (finished_len ver (map plain_node ds) f TF) as FL.
  assert (N1 : (27 + nodes_size ver (map plain_node ds) <= grows ver * lenN data + arrays_bytes ds)%N) by (unfold grows in *; destruct (ver <? 7500)%N; lia).
  assert (N2 : (27 + nodes_size ver (map plain_node ds) < 2 ^ 62)%N) by (unfold grows in *; destruct (ver <? 7500)%N; lia).
  assert (U : u_ok (width ver) (27 + nodes_size ver (map plain_node ds))).
  { unfold u_ok, width, grows in *. destruct (N.ltb_spec ver 7500) as [Q|Q]; [specialize (B1 Q); change (2 ^ (8 * N.of_nat 4))%N with (2 ^ 32)%N; lia|]. change (2 ^ (8 * N.of_nat 8))%N with (4 * 2 ^ 62)%N. lia. }
  change (2 ^ 62)%N with 4611686018427387904%N in N2.
  destruct (C32_can_be_written t k ver f [] ds fl GK HF LK G D) as (s0 & s1 & k' & s2 & E0 & E1 & E2 & E3 & _); [|exact TF|unfold pow2_63; lia|].
  - split; [exact V|]. split; [apply plains_ok; assumption|]. split; [apply sizes_counts, (u_ok_le _ _ _ U); lia|]. split; [exact U|]. unfold pow2_63. lia.
  - exists s0, s1, k', s2. auto.
Qed.

(** If moreover the footer is a standard one, the new file loads as an equal tree. *)
Theorem C72_copy : forall data sched seeks seekable v t f0 ds k ver f fl, zlib_roundtrip env ->
  any_tree (mkStream data 0 sched seeks) seekable = Ok (v, t, f0) ->
  doc_at t (tr_root t) (DNode [] [] ds) ->
  (7000 <= ver <= 7999)%N ->
  Forall (fun a => array_bytes a < 2 ^ 32)%N (flat_map doc_values ds) ->
  (ver < 7500 -> 2 * lenN data + arrays_bytes ds < 2 ^ 32)%N ->
  (4 * lenN data + arrays_bytes ds < 2 ^ 62)%N ->
  wgood k -> (fl = true -> k_flush k = None) -> (lenN (k_data k) < pow2_63)%N -> wfooter_typed f -> standard f ->
  exists s0 s1 k' s2, new_writer k ver = Ok s0 /\ write_tree t s0 = (Ok tt, s1) /\ finalize fl f s1 = (Ok k', s2) /\
    forall sched' seeks' seekable', nofail sched' = true -> noseekfail seeks' = true ->
    exists u ft, any_tree (mkStream (k_data k') 0 sched' seeks') seekable' = Ok (ver, u, inr ft) /\ tree_strict_eq t u = Some true.
Proof.
  intros data sched seeks seekable v t f0 ds k ver f fl HZ H D V S B1 B2 GK HF LK TF SF.
  destruct (C72_can_be_rewritten _ _ _ _ _ _ _ _ _ _ _ _ H D V S B1 B2 GK HF LK TF) as (s0 & s1 & k' & s2 & E0 & E1 & E2 & E3).
  exists s0, s1, k', s2. split; [exact E0|]. split; [exact E1|]. split; [exact E2|]. intros sched' seeks' seekable' N1 N2.
  assert (W : tree_written t k ver f k') by (exists fl, s0, s1, s2; auto).
  destruct (C68_rewrite _ _ _ _ _ _ _ _ _ _ _ HZ H TF SF W E3 _ _ seekable' N1 N2) as (u & ft & A & B & _). exists u, ft. auto.
Qed.
End WithEnv.

(** ** Example: the sample document of version 7400, read in pieces without seeking, and written
    in both header formats. *)
Module RewriteCases.
Import TreeIoCases NormCases.
Fixpoint read_doc (fuel : nat) (t : tree) (i : nat) : dnode :=
  match fuel, name t i, attributes t i with
  | S n, Some nm, Some ats => DNode nm ats (map (read_doc n t) (children t i))
  | _, _, _ => DNode [] [] []
  end.
Definition sample_docs : list dnode := Eval vm_compute in
  match read_doc 9 sample_tree (tr_root sample_tree) with DNode _ _ ds => ds end.
Ltac docs := match goal with
  | |- doc_at ?t ?i _ => eapply doc_at_i; [vm_compute; reflexivity|vm_compute; reflexivity|let c := eval vm_compute in (children t i) in change (children t i) with c; docs]
  | |- Forall2 _ [] _ => constructor
  | |- Forall2 _ (_ :: _) _ => constructor; docs
  end.
Example rewrite_case :
  (exists f0, any_tree (env:=release) (mkStream (sample_doc 7400) 0 [AChunk 5; AIntr] []) false = Ok (7400%N, sample_tree, f0)) /\
  doc_at sample_tree (tr_root sample_tree) (DNode [] [] sample_docs) /\ length (flat_map doc_values sample_docs) <> 0 /\
  Forall (fun a => array_bytes a < 2 ^ 32)%N (flat_map doc_values sample_docs) /\ arrays_bytes sample_docs <> 0%N /\
  (2 * lenN (sample_doc 7400) + arrays_bytes sample_docs < 2 ^ 32)%N /\ (4 * lenN (sample_doc 7400) + arrays_bytes sample_docs < 2 ^ 62)%N /\
  wgood k0 /\ k_flush k0 = None /\ (lenN (k_data k0) < pow2_63)%N /\ wfooter_typed default_footer /\ standard default_footer /\ zlib_roundtrip release.
Proof.
  split; [eexists; vm_compute; reflexivity|]. split; [docs|]. split; [vm_compute; discriminate|].
  split; [repeat constructor|]. split; [vm_compute; discriminate|]. split; [vm_compute; reflexivity|]. split; [vm_compute; reflexivity|].
  split; [split; reflexivity|]. split; [reflexivity|]. split; [vm_compute; reflexivity|]. split; [repeat split|]. split; [repeat split; reflexivity|]. apply stored_roundtrip.
Qed.
Example rewrite_runs : forall ver, In ver [7000; 7400; 7500; 7700]%N -> exists k', written sample_tree ver = Some k' /\ (300 < lenN (k_data k'))%N.
Proof. intros ver [<-|[<-|[<-|[<-|[]]]]]; (eexists; split; [vm_compute; reflexivity|vm_compute; reflexivity]). Qed.
End RewriteCases.

Print Assumptions C72_can_be_rewritten.
Print Assumptions C72_copy.
