(** C67: what an error lets its receiver find out. *)
Require Import Coq.Lists.List Coq.NArith.NArith Coq.Bool.Bool Coq.micromega.Lia.
Require Import Coq.Init.Byte.
Require Import Verif.Base Verif.Types Verif.Io Verif.Parser Verif.Writer Verif.Tree Verif.TreeIo Verif.ErrView.
Require Import Verif.WriterTotal Verif.ParserPos Verif.Loaders Verif.SpecErr Verif.SpecFail Verif.ErrFacts Verif.PropsErr Verif.PropsSink Verif.PropsFail Verif.Zlib Verif.Samples.
Import ListNotations.
Local Open Scope nat_scope.

(** ** Specification *)
(** Following [source] from the first error, one finds the second. *)
Inductive leads : dynerr -> dynerr -> Prop :=
| leads_here : forall d, leads d d
| leads_on : forall d d1 d2, source_of d = Some d1 -> leads d1 d2 -> leads d d2.

(** The inner type that the documentation gives for a kind (error.rs lines 131-160). *)
Definition documented_type (k : errkind) : errtype :=
  match k with KData => TyData | KIo => TyIo | KOperation => TyOperation | KWarning => TyWarning end.

(** ** Kinds and inner errors *)
(** [downcast_ref::<T>] gives something for exactly one [T], the type documented for the kind;
    it is what [get_ref] holds, and what [source] leads to next. *)
Theorem C67_kinds : forall e t d, err_downcast_ref t e = Some d <->
  t = documented_type (err_kind e) /\ d = as_error (err_get_ref e) /\ source_of (DPull e) = Some d.
Proof.
  intros e t d. unfold err_downcast_ref, downcast, err_kind, err_get_ref, source_of, pull_source, container_source.
  destruct (errtype_eq_dec t (type_of (as_error (e_error e)))) as [->|N].
  - split; [intros [= <-]; destruct (e_error e); auto|]. intros (_ & -> & _). reflexivity.
  - split; [discriminate|]. intros (-> & _). exfalso. apply N. destruct (e_error e); reflexivity.
Qed.
(** For each kind: the inner error has that type. *)
Corollary C67_kind_says : forall e,
  (err_kind e = KIo <-> exists x, err_downcast_ref TyIo e = Some (DIo x)) /\
  (err_kind e = KData <-> exists x, err_downcast_ref TyData e = Some (DData x)) /\
  (err_kind e = KOperation <-> exists x, err_downcast_ref TyOperation e = Some (DOperation x)) /\
  (err_kind e = KWarning <-> exists x, err_downcast_ref TyWarning e = Some (DWarning x)).
Proof.
  intros e. unfold err_kind, err_downcast_ref. destruct (e_error e); cbn; repeat split; try discriminate; try (intros (? & [=])); eauto.
Qed.

(** ** Walking along the sources *)
(** The walk ends, after at most four steps. *)
Fixpoint walk (n : nat) (d : dynerr) : option dynerr :=
  match n with O => Some d | S n => match source_of d with Some d' => walk n d' | None => None end end.
Theorem C67_walk_ends : forall d, walk 5 d = None.
Proof.
  assert (D : forall e, walk 2 (DData e) = None) by (intros []; reflexivity).
  assert (C : forall e, walk 2 (as_error e) = None) by (intros [e|e|e|e]; [apply D|reflexivity|reflexivity|reflexivity]).
  assert (S : forall n m d, walk n d = None -> walk (n + m) d = None).
  { induction n as [|n IH]; intros m d H; [discriminate|]. cbn [walk Nat.add] in *. destruct (source_of d); [apply IH; exact H|reflexivity]. }
  assert (P : forall e, walk 3 (DPull e) = None) by (intros e; exact (C (e_error e))).
  assert (L : forall e, walk 4 (DLoad e) = None) by (intros [|e]; [reflexivity|exact (P e)]).
  assert (A : forall e, walk 2 (DAny e) = None) by (intros []; reflexivity).
  assert (W : forall e, walk 3 (DWrite e) = None) by (intros []; reflexivity).
  intros [e|b|e|e|w|e|e|e|e|e|e|e|e|]; try reflexivity.
  - apply (S 2 3), D.
  - apply (S 3 2). exact (C e).
  - apply (S 3 2), P.
  - apply (S 2 3), A.
  - apply (S 4 1), L.
  - destruct e as [e|e]; [apply (S 3 2); exact (A e)|exact (L e)].
  - apply (S 3 2), W.
Qed.

Lemma leads_inv : forall d x, leads d x -> d = x \/ exists d1, source_of d = Some d1 /\ leads d1 x.
Proof. intros d x H. inversion H; subst; eauto. Qed.
(** One step of a walk. *)
Ltac step_ H := let S := fresh "S" in let L := fresh "L" in
  apply leads_inv in H; destruct H as [H|(? & S & L)];
  [first [discriminate H | injection H; clear H; intros; subst]
  |cbn in S; first [discriminate S | injection S; clear S; intros; subst; rename L into H]].
(** Which I/O errors are found behind an error. *)
Lemma pull_leads : forall e x, leads (DPull e) (DIo x) <-> e_error e = EIo x \/ e_error e = EData (BrokenCompression x).
Proof.
  intros e x. split.
  - intros H. step_ H. destruct (e_error e) as [d|y|o|w]; cbn [as_error] in H.
    + apply leads_inv in H. destruct H as [H|(d1 & S & H)]; [discriminate|]. destruct d; cbn in S; try discriminate; injection S as <-; step_ H; auto.
    + step_ H. auto.
    + step_ H.
    + step_ H.
  - intros [H|H]; (eapply leads_on; [cbn; unfold pull_source, container_source; rewrite H; reflexivity|]); cbn [as_error]; [constructor|].
    eapply leads_on; [reflexivity|]. constructor.
Qed.
Lemma write_leads : forall e x, leads (DWrite e) (DIo x) <-> e = WIo x \/ e = Compression x.
Proof.
  intros e x. split.
  - intros H. apply leads_inv in H. destruct H as [H|(d1 & S & H)]; [discriminate|]. destruct e; cbn in S; try discriminate; injection S as <-.
    + step_ H. step_ H. auto.
    + step_ H. auto.
    + step_ H.
  - intros [-> | ->]; (eapply leads_on; [reflexivity|]); [constructor|]. eapply leads_on; [reflexivity|]. constructor.
Qed.
Lemma tree_leads : forall e x, leads (DTree (TreeLoad (LoadParser e))) (DIo x) <-> leads (DPull e) (DIo x).
Proof.
  intros e x. split.
  - intros H. step_ H. step_ H. exact H.
  - intros H. do 2 (eapply leads_on; [reflexivity|]). exact H.
Qed.

Lemma happened_fun : forall a b l m, happened a b l -> happened a b m -> l = m.
Proof.
  intros a b l m (r1 & k1 & E1 & E2 & ->) (r2 & k2 & F1 & F2 & ->). rewrite F1 in E1. rewrite F2 in E2. apply app_inv_tail in E1, E2. congruence.
Qed.

Section WithEnv.
Context {env : Env}.

(** Reading: if a read or seek failed during a call, the call returned an error (in the place of
    the footer, maybe), and the walk from it finds that failure. *)
Theorem C67_reading : forall O (o : op O) s r s' codes c, zlib_hands_on env -> op_fine o ->
  run_op o s = (r, s') -> r <> Panic -> happened (source s) (source s') codes -> In c codes ->
  exists e, error_of r = Some e /\ leads (DPull e) (DIo (IoOther c)).
Proof.
  intros O o s r s' codes c Z F E Hp H I.
  assert (C : exists comp own codes, happened (source s) (source s') codes /\ match error_of r with None => codes = [] | Some e => cause comp own codes e s' end).
  { destruct o as [|ld|ld|].
    - exists false, next_own. apply (C54_events O ONext); auto.
    - exists true, load_own. apply (C54_loads O ld (OLoad ld)); auto.
    - exists true, load_own. apply (C54_loads O ld (OLoadBuf ld)); auto.
    - exists false, next_own. apply (C54_events O OSkip); auto. }
  destruct C as (comp & own & codes' & H' & C). rewrite (happened_fun _ _ _ _ H' H) in C. destruct (error_of r) as [e|]; [|subst codes; contradiction].
  exists e. split; [reflexivity|]. destruct C as [(c' & -> & X)|(-> & _)]; [|contradiction]. destruct I as [->|[]]. apply pull_leads.
  destruct X as [X|(_ & X)]; auto.
Qed.

(** Loading a document: if the failures of the reader change the result, then the result is an
    error (or a tree with an error in the place of the footer), and the walk from it finds an I/O
    failure; but not if the failure was one while the header of the file was read. *)
Theorem C67_loading_partial : forall data sched seeks seekable, zlib_hands_on env ->
  let r := any_tree (mkStream data 0 sched seeks) seekable in
  r <> Panic -> r <> any_tree (mkStream data 0 [] []) seekable ->
  match r with
  | Ok (_, _, f) => exists e c, f = inl e /\ leads (DPull e) (DIo (IoOther c))
  | Err (TreeParserCreation e) => exists c, e = AnyHeader (HeaderIo (IoOther c))
  | Err e => exists c, leads (DTree e) (DIo (IoOther c))
  | Panic => False
  end.
Proof.
  intros data sched seeks seekable Z r Hp N. assert (T : ~ ~ tree_reports r) by (intros X; apply N; symmetry; apply (C66_any_tree _ _ _ _ Z Hp X)).
  assert (P : forall e, ~ ~ io_report e -> exists c, leads (DPull e) (DIo (IoOther c))).
  { intros e X. unfold io_report in X. destruct (e_error e) as [[x| | | | | | |]|x| |] eqn:Ee; try (exfalso; apply X; intros Y; exact Y);
      destruct x; try (exfalso; apply X; intros Y; exact Y); eexists; apply pull_leads; eauto. }
  destruct r as [[[v t] f]|[e|[|e]]|]; cbn in T.
  - destruct f as [e|f]; [|exfalso; apply T; intros Y; exact Y]. destruct (P e T) as (c & L). eauto.
  - destruct e as [[x|]|]; try (exfalso; apply T; intros Y; exact Y). destruct x; try (exfalso; apply T; intros Y; exact Y). eauto.
  - exfalso; apply T; intros Y; exact Y.
  - destruct (P e T) as (c & L). exists c. apply tree_leads. exact L.
  - congruence.
Qed.

(** Writing: if a write or seek of the sink failed during a call of the writer, the call
    returned an error and the walk from it finds that failure. *)
Definition sink_failed (k k' : sink) (c : N) : Prop :=
  exists writes seeks, k_writes k = writes ++ k_writes k' /\ k_seeks k = seeks ++ k_seeks k' /\ (In (WFail c) writes \/ In (Some c) seeks).
Definition failure_found {A} (k : sink) (r : res werr A) (k' : sink) : Prop :=
  forall c, sink_failed k k' c -> exists e, r = Err e /\ leads (DWrite e) (DIo (IoOther c)).
Lemma faithful_found : forall A k (r : res werr A) k', faithful_to k r k' -> failure_found k r k'.
Proof.
  intros A k r k' (w & q & H1 & H2 & H) c (w' & q' & G1 & G2 & G). rewrite G1 in H1. rewrite G2 in H2. apply app_inv_tail in H1, H2. subst w' q'.
  assert (WF : forall l, In (WFail c) l -> existsb wfails l = true) by (intros l X; apply existsb_exists; exists (WFail c); auto).
  assert (SF : forall l, In (Some c) l -> existsb sfails l = true) by (intros l X; apply existsb_exists; exists (Some c); auto).
  destruct H as [[A1 A2]|(e & R & H)]; [destruct G as [G|G]; [rewrite (WF _ G) in A1|rewrite (SF _ G) in A2]; discriminate|].
  assert (X : e = IoOther c).
  { destruct H as [(w0 & a & -> & Fa & B1 & B2)|(q0 & c0 & -> & -> & B1 & B2)]; destruct G as [G|G].
    - apply in_app_or in G. destruct G as [G|[->|[]]]; [rewrite (WF _ G) in B1; discriminate|]. cbn in Fa. exact Fa.
    - rewrite (SF _ G) in B2. discriminate.
    - rewrite (WF _ G) in B2. discriminate.
    - apply in_app_or in G. destruct G as [G|[[= ->]|[]]]; [rewrite (SF _ G) in B1; discriminate|]. reflexivity. }
  subst e. destruct R as [-> | ->]; (eexists; split; [reflexivity|]); apply write_leads; auto.
Qed.
Theorem C67_writing : forall s,
  (forall name, failure_found (w_sink s) (fst (new_node name s)) (w_sink (snd (new_node name s)))) /\
  (forall c, failure_found (w_sink s) (fst (run_acall c s)) (w_sink (snd (run_acall c s)))) /\
  failure_found (w_sink s) (fst (close_node s)) (w_sink (snd (close_node s))) /\
  (forall fl f, failure_found (w_sink s) (fst (finalize fl f s)) (w_sink (snd (finalize fl f s))) \/
     exists c e, fl = true /\ k_flush (w_sink (snd (finalize fl f s))) = Some c /\ fst (finalize fl f s) = Err e /\ leads (DWrite e) (DIo (IoOther c))).
Proof.
  intros s. destruct (C31_failures_reported s) as (A & B & C & D).
  split; [intros; apply faithful_found, A|]. split; [intros; apply faithful_found, B|]. split; [apply faithful_found, C|].
  intros fl f. destruct (D fl f) as [X|(c & X1 & X2 & X3)]; [left; apply faithful_found, X|right]. exists c, (WIo (IoOther c)).
  repeat split; auto. apply write_leads. auto.
Qed.
End WithEnv.

(** The header is the exception: the walk from the error finds no I/O error, although the error
    was caused by one, because [HeaderError] has no source. *)
Theorem C67_header_refuted : exists (env : Env) data sched e,
  any_parser (mkStream data 0 sched []) true = Err e /\
  any_tree (mkStream data 0 sched []) true = Err (TreeParserCreation e) /\
  (exists p, any_parser (mkStream data 0 [] []) true = Ok p) /\
  e = AnyHeader (HeaderIo (IoOther 3)) /\
  (forall x, ~ leads (DAny e) (DIo x)) /\ forall x, ~ leads (DTree (TreeParserCreation e)) (DIo x).
Proof.
  exists release, (sample_doc 7400), [AChunk 23; AFail 3], (AnyHeader (HeaderIo (IoOther 3))).
  split; [vm_compute; reflexivity|]. split; [vm_compute; reflexivity|]. split; [eexists; vm_compute; reflexivity|]. split; [reflexivity|].
  assert (L : forall x, ~ leads (DAny (AnyHeader (HeaderIo (IoOther 3)))) (DIo x)).
  { intros x H. step_ H. step_ H. }
  split; [exact L|]. intros x H. step_ H. exact (L _ H).
Qed.

(** ** Examples *)
Module ViewCases.
Import SinkCases.
(** A reader that fails after [n] bytes, and what the calls on it report. *)
Definition after (n : nat) : list ioact := repeat (AChunk 1) n ++ [AFail 9].
Definition errors (n : nat) : list perr := flat_map (fun r => match error_of r with Some e => [e] | None => [] end) (FailCases.results (after n) sample_ops).
Definition view (e : perr) : errkind * option dynerr * option dynerr * option dynerr :=
  (err_kind e, walk 1 (DPull e), walk 2 (DPull e), walk 3 (DPull e)).
(** Failing in a node header, and failing in the header of compressed data: the first error of
    the calls leads to the failure, at once or behind a data error. *)
Example reading_ex : option_map view (hd_error (errors 60)) = Some (KIo, Some (DIo (IoOther 9)), None, None) /\
  option_map view (hd_error (errors 135)) = Some (KData, Some (DData (BrokenCompression (IoOther 9))), Some (DIo (IoOther 9)), None).
Proof. split; vm_compute; reflexivity. Qed.
(** The hypotheses of [C67_reading] in the second case. *)
Example reading_hyp : exists p s s' r e, opened (sample_doc 7400) (after 135) [] true None p /\
  snd (run_ops (env:=release) (firstn 11 sample_ops) p) = s /\ run_op (env:=release) ld s = (r, s') /\ r <> Panic /\ op_fine ld /\ zlib_hands_on release /\
  happened (source s) (source s') [9%N] /\ error_of r = Some e.
Proof.
  do 5 eexists. split; [eexists; split; [vm_compute; reflexivity|reflexivity]|]. split; [vm_compute; reflexivity|].
  split; [vm_compute; reflexivity|]. split; [discriminate|]. split; [exact direct_fine|]. split; [apply stored_hands_on|].
  split; [exists (repeat (AChunk 1) 13 ++ [AFail 9]), []; split; [vm_compute; reflexivity|]; split; vm_compute; reflexivity|vm_compute; reflexivity].
Qed.
(** Loading: a failure in the middle, and one in the footer. *)
Example loading_ex :
  (exists e, any_tree (env:=release) (mkStream (sample_doc 7400) 0 (after 135) []) true = Err e /\ walk 4 (DTree e) = Some (DIo (IoOther 9))) /\
  any_tree (env:=release) (mkStream (sample_doc 7400) 0 (after 135) []) true <> any_tree (env:=release) (mkStream (sample_doc 7400) 0 [] []) true.
Proof. split; [eexists; split; vm_compute; reflexivity|vm_compute; discriminate]. Qed.
(** Writing: the sink of the example of C31. *)
Example writing_ex : exists e, sink_failed (w_sink s_kfail) (w_sink (snd (new_node (env := release) s_a s_kfail))) 9 /\
  fst (new_node (env := release) s_a s_kfail) = Err e /\ walk 1 (DWrite e) = Some (DIo (IoOther 9)).
Proof.
  eexists. split; [|split; vm_compute; reflexivity].
  exists [WFail 9], (firstn 1 (k_seeks (w_sink s_kfail))). split; [vm_compute; reflexivity|]. split; [vm_compute; reflexivity|]. left. left. reflexivity.
Qed.
End ViewCases.

Print Assumptions C67_kinds.
Print Assumptions C67_kind_says.
Print Assumptions C67_walk_ends.
Print Assumptions C67_reading.
Print Assumptions C67_loading_partial.
Print Assumptions C67_writing.
Print Assumptions C67_header_refuted.
