(** C73: copying a file event by event. *)
Require Import Coq.Lists.List Coq.NArith.NArith Coq.ZArith.ZArith Coq.Bool.Bool Coq.micromega.Lia.
Require Import Verif.Base Verif.BaseFacts Verif.Utf8 Verif.Types Verif.Zlib Verif.Io Verif.IoFacts Verif.Parser Verif.Loaders Verif.Spec Verif.SpecFacts Verif.ParserPos Verif.Writer Verif.WriterSpec Verif.WriterFacts Verif.WriterTotal Verif.WriterNodes Verif.Samples Verif.PropsWriter Verif.PropsRel Verif.PropsDoc Verif.PropsDoc Verif.PropsRound Verif.Tree Verif.TreeFacts Verif.TreeSpec Verif.PropsTreeEq Verif.TreeIo Verif.TreeIoSpec Verif.TreeLoad Verif.TreeWrite Verif.TreeRound Verif.PropsTreeIo Verif.PropsAnyTree Verif.LoadTyped Verif.PropsNorm Verif.LoadSize Verif.PropsRewrite.
Import ListNotations.
Local Open Scope nat_scope.

(** A client that hands on what it reads: for every node that starts it calls [new_node] with
    the name and appends the attributes, with or without compression as it likes; for every node
    that ends it calls [close_node].  The calls of the parser and of the writer do not affect
    each other, so their order in time is left out. *)
Inductive copies : list item -> list wcall -> Prop :=
| copies_nil : copies [] []
| copies_start : forall nm ats l cs, Forall zip_ok ats -> copies l cs ->
    copies (IStart nm (map at_val ats) :: l) (CNode nm (map call_of ats) :: cs)
| copies_end : forall l cs, copies l cs -> copies (IEnd :: l) (CClose :: cs).

(** No array is compressed. *)
Definition plain_acall (c : acall) : Prop := match c with AArray (Some _) _ _ => False | _ => True end.
Definition plain_wcall (c : wcall) : Prop := match c with CNode _ l => Forall plain_acall l | CClose => True end.

Section WithEnv.
Context {env : Env}.

Lemma copies_forest : forall ds l cs, copies (forest_items ds ++ l) cs ->
  exists ns cs', map doc_of ns = ds /\ Forall zips_ok ns /\ cs = calls_of_all ns ++ cs' /\ copies l cs'.
Proof.
  assert (N : forall d l cs, copies (dnode_items d ++ l) cs -> exists n cs', doc_of n = d /\ zips_ok n /\ cs = calls_of n ++ cs' /\ copies l cs').
  { induction d as [nm ats ks IH] using dnode_ind'. intros l cs H. cbn [dnode_items app] in H. inversion H as [|nm' ats' l0 cs0 Z H0 E1 E2|]; subst. clear H.
    rewrite <- app_assoc in H0.
    assert (K : exists ns cs', map doc_of ns = ks /\ Forall zips_ok ns /\ cs0 = calls_of_all ns ++ cs' /\ copies ([IEnd] ++ l) cs').
    { clear - IH H0. revert cs0 H0. induction IH as [|k ks Hk _ IHk]; intros cs0 H0.
      - exists [], cs0. auto.
      - cbn [flat_map] in H0. rewrite <- app_assoc in H0. destruct (Hk _ _ H0) as (n & cs1 & <- & Zn & -> & C1).
        destruct (IHk _ C1) as (ns & cs2 & <- & Zs & -> & C2). exists (n :: ns), cs2. unfold calls_of_all. cbn [flat_map map]. rewrite <- app_assoc. auto. }
    destruct K as (ns & cs' & <- & Zs & -> & C). inversion C as [| |l1 cs1 C1]; subst.
    exists (Node nm ats' ns), cs1. split; [reflexivity|]. split; [apply zips_ok_eq; auto|]. split; [|exact C1]. cbn [calls_of]. unfold calls_of_all. cbn [app]. rewrite <- app_assoc. reflexivity. }
  unfold forest_items. induction ds as [|d ds IH]; intros l cs H.
  - exists [], cs. auto.
  - cbn [flat_map] in H. rewrite <- app_assoc in H. destruct (N _ _ _ H) as (n & cs1 & <- & Zn & -> & C1). destruct (IH _ _ C1) as (ns & cs2 & <- & Zs & -> & C2).
    exists (n :: ns), cs2. unfold calls_of_all. cbn [flat_map map]. rewrite <- app_assoc. auto.
Qed.

Lemma typed_calls : forall n, doc_typed (doc_of n) -> Forall wcall_typed (calls_of n) /\ Forall wfaithful (calls_of n).
Proof.
  induction n as [nm ats ks IH] using node_ind2. intros D. inversion D as [nm0 ats0 ks0 HN HA HK]; subst. cbn [calls_of].
  assert (A : Forall acall_typed (map call_of ats) /\ Forall faithful (map call_of ats)).
  { clear - HA. induction ats as [|[v z] l IHl]; [split; constructor|]. apply Forall_cons_iff in HA. destruct HA as [V HA]. destruct (IHl HA). cbn [map at_val] in *. split; constructor; auto; destruct v; cbn; auto. }
  assert (K : Forall wcall_typed (flat_map calls_of ks) /\ Forall wfaithful (flat_map calls_of ks)).
  { clear - IH HK. induction IH as [|k ks Hk _ IHk]; [split; constructor|]. apply Forall_cons_iff in HK. destruct HK as [K1 K2]. destruct (Hk K1), (IHk K2). cbn [flat_map]. split; apply Forall_app; auto. }
  destruct A, K. split; (constructor; [cbn; eauto|]); apply Forall_app; (split; [assumption|repeat constructor]).
Qed.

Lemma no_zip_calls : forall n, Forall plain_wcall (calls_of n) -> zips_ok n -> no_zip n = true.
Proof.
  induction n as [nm ats ks IH] using node_ind2. intros P Z. cbn [calls_of no_zip] in *. apply zips_ok_eq in Z. destruct Z as [Z1 Z2].
  apply Forall_cons_iff in P. destruct P as [P1 P2]. apply Forall_app in P2. destruct P2 as [P2 _]. apply andb_true_intro. split.
  - clear - P1 Z1. cbn [plain_wcall] in P1. induction ats as [|[v z] l IHl]; [reflexivity|]. cbn [map] in P1. apply Forall_cons_iff in P1, Z1. destruct P1 as [A B], Z1 as [C D].
    cbn [forallb at_zip]. rewrite (IHl B D), andb_true_r. unfold zip_ok in C. cbn [at_val at_zip] in C. destruct z; [|reflexivity]. exfalso. destruct v; cbn in A, C; try discriminate; exact A.
  - clear - IH P2 Z2. induction IH as [|k ks Hk _ IHk]; [reflexivity|]. cbn [flat_map] in P2. apply Forall_app in P2. apply Forall_cons_iff in Z2. destruct P2, Z2. cbn [forallb]. rewrite Hk, IHk; auto.
Qed.

Lemma reads_forest : forall data sched seeks seekable h p items f s, open_as data sched seeks seekable h = Ok p -> reads p items (Ok f) s ->
  exists ds, items = forest_items ds /\ Forall doc_typed ds.
Proof.
  intros data sched seeks seekable h p items f s E R. destruct (C33_reads_load _ _ _ _ _ _ (open_as_opened _ _ _ _ _ _ E) _ _ _ R) as (r & L & M).
  cbn [load_matches] in M. destruct M as (t & ds & _ & I & _ & _). exists ds. split; [exact I|]. apply items_typed. rewrite <- I. apply (reads_typed _ _ _ _ R).
Qed.

(** A file read to its end with any reader and any handler, and copied by such a client to a
    writer of any version; if all calls of the writer succeed, then reading the new file gives
    the same names, attributes and structure.  (For compressed arrays the second reader has to
    be seekable: C04.) *)
Theorem C73_copy_reads_the_same : forall data sched seeks seekable h p items f0 s cs k ver f fl s0 s1 k' s2, zlib_roundtrip env ->
  open_as data sched seeks seekable h = Ok p -> reads p items (Ok f0) s -> copies items cs ->
  wfooter_typed f -> standard f ->
  new_writer k ver = Ok s0 -> try_wcalls cs s0 = (Ok tt, s1) -> finalize fl f s1 = (Ok k', s2) -> (lenN (k_data k') < pow2_64)%N ->
  forall sched' seeks' seekable' h', nofail sched' = true -> noseekfail seeks' = true -> accepting h' ->
  seekable' = true \/ Forall plain_wcall cs ->
  exists p' ft s', open_as (k_data k') sched' seeks' seekable' h' = Ok p' /\ p_ver p' = ver /\ reads p' items (Ok (inr ft)) s'.
Proof.
  intros data sched seeks seekable h p items f0 s cs k ver f fl s0 s1 k' s2 HZ E R C TF SF E0 E1 E2 LK sched' seeks' seekable' h' HN HK HT HS.
  destruct (reads_forest _ _ _ _ _ _ _ _ _ E R) as (ds & -> & TD). rewrite <- (app_nil_r (forest_items ds)) in C.
  destruct (copies_forest _ _ _ C) as (ns & cs' & <- & Z & -> & C'). inversion C'; subst. rewrite app_nil_r in *. clear C C'.
  assert (TY : Forall wcall_typed (calls_of_all ns) /\ Forall wfaithful (calls_of_all ns)).
  { clear - TD. induction ns as [|n ns IH]; [split; constructor|]. cbn [map] in TD. apply Forall_cons_iff in TD. destruct TD as [T1 T2]. destruct (typed_calls _ T1), (IH T2).
    unfold calls_of_all in *. cbn [flat_map]. split; apply Forall_app; auto. }
  destruct (try_wcalls_ok _ _ _ E1) as (rs & ER & FR).
  assert (F : finished k ver (calls_of_all ns) f k').
  { constructor; [exact TF|exact LK|]. exists s1, fl, s2. split; [|exact E2]. destruct TY. constructor; auto. exists s0, rs. split; [exact E0|]. split; [exact ER|]. eapply Forall_impl; [|exact FR]. auto. }
  destruct (C26_opens _ _ _ _ _ sched' seeks' seekable' h' F HN) as (p' & HO & HV).
  destruct (finished_bytes _ _ _ _ _ F) as [HD (ext & EB)]. rewrite (nodes_of_all _ Z) in HD, EB. rewrite (standard_doc _ _ _ SF) in EB.
  assert (OD : opened_doc ver ns (foot_of ver ns f) ext seekable' p').
  { constructor; [exact HD|apply standard_foot; assumption|rewrite <- EB; exact LK|].
    exists sched', seeks', h'. rewrite <- EB. split; [exact HN|]. split; [exact HK|]. split; [|exact HO]. exact HT. }
  destruct (C33_document ver ns (foot_of ver ns f) ext seekable' p' HZ OD) as (u & s' & EL & _ & GU & DU).
  { destruct HS as [->|HS]; [left; reflexivity|right]. apply forallb_forall. intros n Hn. apply no_zip_calls; [|apply (proj1 (Forall_forall _ _) Z _ Hn)].
    apply Forall_forall. intros c Hc. apply (proj1 (Forall_forall _ _) HS). apply in_flat_map. eauto. }
  destruct (C33_load_reads _ _ _ _ _ _ HO _ _ EL) as (items & o & R' & M). destruct o as [f'|e|]; cbn [load_matches] in M; [|discriminate|discriminate].
  destruct M as (t' & ds & [= <- <-] & -> & _ & D'). pose proof (C38_document_unique _ _ _ _ DU D') as X. injection X as <-.
  exists p'; do 2 eexists. split; [|split; [exact HV|exact R']]. destruct HO as (p0 & EO & ->). unfold open_as. rewrite EO. reflexivity.
Qed.

(** If the client does not compress, it writes the same bytes as a client that loads the tree
    and writes it, on every writer: even the outcome is the same if writing fails. *)
Theorem C73_same_as_tree : forall data sched seeks seekable v t f0 p items f1 s cs,
  any_tree (mkStream data 0 sched seeks) seekable = Ok (v, t, f0) ->
  open_as data sched seeks seekable (Some (fun _ => None)) = Ok p -> reads p items (Ok f1) s -> copies items cs -> Forall plain_wcall cs ->
  f1 = f0 /\ forall w, try_wcalls cs w = write_tree t w.
Proof.
  intros data sched seeks seekable v t f0 p items f1 s cs H E R C P.
  destruct (any_tree_open _ _ _ _ _ _ _ H) as (p' & items' & s' & E' & _ & L & R'). rewrite E in E'. injection E' as <-.
  destruct (reads_det _ _ _ _ R _ _ _ R') as (-> & [= <-] & ->). split; [reflexivity|]. intros w.
  destruct (C33_reads_load _ _ _ _ _ _ (open_as_opened _ _ _ _ _ _ E) _ _ _ R) as (r & L' & M). rewrite L' in L. cbn [fst] in L. subst r.
  cbn [load_matches] in M. destruct M as (t' & ds & [= <-] & -> & G & D). rewrite (C32_calls _ _ _ w G D). f_equal.
  rewrite <- (app_nil_r (forest_items ds)) in C. destruct (copies_forest _ _ _ C) as (ns & cs' & <- & Z & -> & C'). inversion C'; subst. rewrite app_nil_r in *. f_equal.
  rewrite map_map. clear - Z P. assert (N : forall n, no_zip n = true -> plain_node (doc_of n) = n).
  { induction n as [nm ats ks IH] using node_ind2. intros K. cbn [no_zip] in K. apply andb_prop in K. destruct K as [K1 K2]. cbn [doc_of plain_node]. f_equal.
    - rewrite map_map. clear - K1. induction ats as [|[v z] l IHl]; [reflexivity|]. cbn [forallb at_zip map at_val] in *. apply andb_prop in K1. destruct K1 as [A B]. destruct z; [discriminate|]. f_equal; auto.
    - rewrite map_map. clear - IH K2. induction IH as [|k ks Hk _ IHk]; [reflexivity|]. cbn [forallb map] in *. apply andb_prop in K2. destruct K2. f_equal; auto. }
  induction ns as [|n ns IH]; [reflexivity|]. unfold calls_of_all in P. cbn [flat_map] in P. apply Forall_app in P. apply Forall_cons_iff in Z. destruct P, Z. cbn [map]. f_equal; [symmetry; apply N, no_zip_calls; assumption|apply IH; assumption].
Qed.
End WithEnv.

(** ** Example: the sample document, which has a compressed array, copied to version 7500 with
    the compression kept, and without compression. *)
Module CopyCases.
Import TreeIoCases NormCases RewriteCases.
Definition sample_items : list item := Eval vm_compute in forest_items sample_docs.
Example copy_reads : exists p f0 s, open_as (sample_doc 7400) [AChunk 5; AIntr] [] false (Some (fun _ => None)) = Ok p /\
  reads (env:=release) p sample_items (Ok f0) s /\ length sample_items = 8.
Proof.
  destruct rewrite_case as ((f0 & H) & D & _). destruct (any_tree_open (env:=release) _ _ _ _ _ _ _ H) as (p & items & s & E & _ & L & R).
  exists p, f0, s. split; [exact E|]. split; [|reflexivity].
  destruct (C33_reads_load (env:=release) _ _ _ _ _ _ (open_as_opened _ _ _ _ _ _ E) _ _ _ R) as (r & L' & M). rewrite L' in L. cbn [fst] in L. subst r.
  cbn [load_matches] in M. destruct M as (t' & ds & [= <-] & I & _ & D'). pose proof (C38_document_unique _ _ _ _ D D') as X. injection X as <-.
  rewrite I in R. exact R.
Qed.
Example copy_calls : copies sample_items (calls_of_all sample_nodes) /\ ~ Forall plain_wcall (calls_of_all sample_nodes) /\
  copies sample_items (calls_of_all (map plain_node sample_docs)) /\ Forall plain_wcall (calls_of_all (map plain_node sample_docs)).
Proof.
  assert (C : forall ns, Forall zips_ok ns -> copies (forest_items (map doc_of ns)) (calls_of_all ns)).
  { assert (N : forall n, zips_ok n -> forall l cs, copies l cs -> copies (dnode_items (doc_of n) ++ l) (calls_of n ++ cs)).
    { induction n as [nm ats ks IH] using node_ind2. intros Z l cs H. apply zips_ok_eq in Z. destruct Z as [Z1 Z2]. cbn [doc_of dnode_items calls_of app]. constructor; [exact Z1|].
      rewrite <- !app_assoc. cbn [app]. assert (H' : copies (IEnd :: l) (CClose :: cs)) by (constructor; exact H). revert H'. generalize (IEnd :: l) (CClose :: cs). clear - IH Z2.
      induction IH as [|k ks Hk _ IHk]; intros l cs H; [exact H|]. apply Forall_cons_iff in Z2. destruct Z2. cbn [map flat_map]. rewrite <- !app_assoc. auto. }
    intros ns Z. unfold forest_items, calls_of_all. induction ns as [|n ns IH]; [constructor|]. apply Forall_cons_iff in Z. destruct Z. cbn [map flat_map]. auto. }
  split; [apply (C sample_nodes); repeat constructor|]. split.
  - intros F. assert (X : forallb no_zip sample_nodes = true); [|vm_compute in X; discriminate].
    apply forallb_forall. intros n Hn. apply no_zip_calls; [|revert n Hn; apply Forall_forall; repeat constructor].
    apply Forall_forall. intros c Hc. apply (proj1 (Forall_forall _ _) F). apply in_flat_map. eauto.
  - split; [|repeat constructor]. pose proof (C (map plain_node sample_docs) (plains_zips _)) as X. rewrite docs_plain in X. exact X.
Qed.
Definition copied (cs : list wcall) (ver : N) : option sink :=
  match new_writer k0 ver with
  | Ok s0 => match try_wcalls (env:=release) cs s0 with (Ok tt, s1) => match finalize true default_footer s1 with (Ok k', _) => Some k' | _ => None end | _ => None end
  | _ => None
  end.
Example copy_runs : exists k1 k2, copied (calls_of_all sample_nodes) 7500 = Some k1 /\ copied (calls_of_all (map plain_node sample_docs)) 7500 = Some k2 /\
  k_data k2 = k_data first_file /\ k_data k1 <> k_data k2 /\ (lenN (k_data k1) < pow2_64)%N.
Proof. do 2 eexists. split; [vm_compute; reflexivity|]. split; [vm_compute; reflexivity|]. split; [vm_compute; reflexivity|]. split; [vm_compute; discriminate|vm_compute; reflexivity]. Qed.
End CopyCases.

Print Assumptions C73_copy_reads_the_same.
Print Assumptions C73_same_as_tree.
