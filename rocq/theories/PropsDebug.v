(** C70: what [debug_tree] shows. *)
Require Import Coq.Strings.String.
Require Import Coq.Lists.List Coq.Arith.PeanoNat Coq.Bool.Bool Lia Coq.ZArith.ZArith Coq.NArith.NArith.
Require Import Coq.Init.Byte.
Require Import Verif.Base Verif.BaseFacts Verif.Types Verif.Values Verif.Tree Verif.TreeFacts Verif.TreeSpec Verif.TreeLinks Verif.TreeOps Verif.TreePaths Verif.PropsTree Verif.PropsTreeEq Verif.TreeDebug Verif.Loaders.
Import ListNotations.
Local Open Scope nat_scope.

(** A document shown by a formatter: for each node its name, its attributes and its children,
    in order. *)
Fixpoint shown {T} (F : formatter T) (d : dnode) : T :=
  match d with
  | DNode nm ats ks =>
      f_struct F (str "Node") [(str "name", f_str F nm); (str "attributes", f_list F (map (f_val F) ats)); (str "children", f_list F (map (shown F) ks))]
  end.

Lemma debug_correct : forall T (F : formatter T) t r, rose_at t r -> forall fuel d, length (ids r) <= fuel ->
  doc_at t (rose_id r) d -> debug_node F fuel t (rose_id r) = Some (shown F d).
Proof.
  intros T F t. induction r as [i ks IH] using rose_ind'. intros R fuel d L D.
  inversion R as [? ? Hi EC FK]; subst. cbn [rose_id ids] in *. destruct fuel as [|fuel]; [cbn in L; lia|].
  inversion D as [? n a ds N1 A1 K1]; subst. cbn [debug_node shown]. rewrite N1, A1.
  assert (G : (fix all (l : list nat) : option (list T) :=
                   match l with
                   | [] => Some []
                   | c :: l' =>
                       match debug_node F fuel t c with
                       | Some x => match all l' with Some xs => Some (x :: xs) | None => None end
                       | None => None
                       end
                   end) (children t i) = Some (map (shown F) ds)).
  { rewrite EC in K1 |- *. clear EC D N1 A1 R Hi.
    assert (FL : length (flat_map ids ks) <= fuel) by (cbn in L; lia). clear L.
    revert ds K1. induction ks as [|k ks IHk]; intros ds K1; inversion K1; subst; clear K1; [reflexivity|]. cbn [map flat_map] in *. rewrite app_length in FL.
    inversion IH as [|? ? IH1 IH2]; subst. inversion FK as [|? ? FK1 FK2]; subst.
    rewrite (IH1 FK1 fuel y ltac:(lia) ltac:(assumption)). rewrite (IHk IH2 FK2 ltac:(lia) l' ltac:(assumption)). reflexivity. }
  rewrite G. reflexivity.
Qed.

(** For every tree built without inserting a node beside its own descendant, and whatever the
    formatter: [debug_tree] returns and shows the document of the tree. *)
Theorem C70_shows_partial : forall T (F : formatter T) t d, grown t -> doc_at t (tr_root t) d ->
  debug_tree F t = Some (shown F d).
Proof.
  intros T F t d G D. pose proof (built_wf _ (grown_built _ G)) as W. pose proof (wf_links _ W) as L. pose proof (grown_acyclic _ G) as AC.
  destruct (rose_exists t L AC (tr_root t) (wf_root _ W)) as (r & R & E). unfold debug_tree. rewrite <- E in *. apply debug_correct; auto.
  pose proof (ids_length t L AC r R). lia.
Qed.

(** Trees that are equal under [strict_eq] are shown alike, whatever their history. *)
Theorem C70_equal_trees_partial : forall T (F : formatter T) t u, grown t -> grown u ->
  tree_strict_eq t u = Some true -> debug_tree F t = debug_tree F u /\ debug_tree F t <> None.
Proof.
  intros T F t u GT GU E.
  destruct (C38_document_exists t (tr_root t) GT (wf_root _ (built_wf _ (grown_built _ GT)))) as (d & D).
  destruct (C38_document_exists u (tr_root u) GU (wf_root _ (built_wf _ (grown_built _ GU)))) as (e & K).
  destruct (C38_tree_strict_eq_partial t u d e GT GU D K) as (b & Eb & B). rewrite E in Eb. injection Eb as <-.
  rewrite (C70_shows_partial _ F _ _ GT D), (C70_shows_partial _ F _ _ GU K). rewrite (proj1 B eq_refl). split; [reflexivity|discriminate].
Qed.

(** A formatter that shows different things differently tells the trees apart that
    [strict_eq] tells apart. *)
Definition tells_apart {T} (F : formatter T) : Prop :=
  (forall n l m k, f_struct F n l = f_struct F m k -> l = k) /\ (forall l k, f_list F l = f_list F k -> l = k) /\
  (forall n m, f_str F n = f_str F m -> n = m) /\ (forall v w, f_val F v = f_val F w -> v = w).
Lemma map_inj : forall A B (f : A -> B), (forall x y, f x = f y -> x = y) -> forall l m, map f l = map f m -> l = m.
Proof. intros A B f H. induction l as [|x l IH]; intros [|y m] E; try discriminate; [reflexivity|]. cbn in E. injection E as E1 E2. f_equal; auto. Qed.
Lemma shown_inj : forall T (F : formatter T), tells_apart F -> forall d e, shown F d = shown F e -> d = e.
Proof.
  intros T F (S1 & S2 & S3 & S4). induction d as [n a ks IH] using dnode_ind'. intros [m b js] E. cbn [shown] in E. apply S1 in E. injection E as E1 E2 E3.
  apply S3 in E1. apply S2 in E2. apply (map_inj _ _ _ S4) in E2. apply S2 in E3. subst. f_equal.
  revert js E3. induction IH as [|k ks Hk _ IHk]; intros [|j js] E3; try discriminate; [reflexivity|]. cbn in E3. injection E3 as E4 E5. f_equal; auto.
Qed.
Theorem C70_tells_partial : forall T (F : formatter T) t u, tells_apart F -> grown t -> grown u ->
  (debug_tree F t = debug_tree F u <-> tree_strict_eq t u = Some true).
Proof.
  intros T F t u HF GT GU. split; [|intros E; apply (C70_equal_trees_partial T F t u GT GU E)]. intros E.
  destruct (C38_document_exists t (tr_root t) GT (wf_root _ (built_wf _ (grown_built _ GT)))) as (d & D).
  destruct (C38_document_exists u (tr_root u) GU (wf_root _ (built_wf _ (grown_built _ GU)))) as (e & K).
  rewrite (C70_shows_partial _ F _ _ GT D), (C70_shows_partial _ F _ _ GU K) in E. injection E as E. apply (shown_inj _ _ HF) in E.
  destruct (C38_tree_strict_eq_partial t u d e GT GU D K) as (b & Eb & B). rewrite Eb, (proj2 B E). reflexivity.
Qed.

(** Without the proviso the full claim fails: on a tree with a cycle [debug_tree] never
    returns, whatever the number of levels it may descend. *)
Theorem C70_cycle_refuted : exists t i, built t /\ node_of t i /\ forall T (F : formatter T) fuel, debug_node F fuel t i = None.
Proof.
  exists Cases.looped, 1. split; [exact Cases.looped_built|]. split; [vm_compute; lia|]. intros T F.
  assert (C1 : children Cases.looped 1 = [2]) by (vm_compute; reflexivity).
  assert (C2 : children Cases.looped 2 = [3; 1]) by (vm_compute; reflexivity).
  assert (N1 : name Cases.looped 1 = Some ["a"%byte]) by (vm_compute; reflexivity).
  assert (N2 : name Cases.looped 2 = Some ["b"%byte]) by (vm_compute; reflexivity).
  assert (A1 : attributes Cases.looped 1 = Some []) by (vm_compute; reflexivity).
  assert (A2 : attributes Cases.looped 2 = Some []) by (vm_compute; reflexivity).
  assert (G : forall fuel, debug_node F fuel Cases.looped 1 = None /\ debug_node F fuel Cases.looped 2 = None).
  { induction fuel as [|fuel [IH1 IH2]]; [split; reflexivity|]. cbn [debug_node]. rewrite N1, N2, A1, A2, C1, C2, IH1, IH2. split; [reflexivity|].
    destruct (debug_node F fuel Cases.looped 3); reflexivity. }
  intros fuel. apply G.
Qed.

(** ** Concrete cases *)
Module DebugCases.
(** The formatter that keeps everything. *)
Inductive seen := SStruct (n : list byte) (l : list (list byte * seen)) | SList (l : list seen) | SStr (n : list byte) | SVal (v : aval).
Definition keep : formatter seen := mkFormatter _ SStruct SList SStr SVal.
Example keep_tells : tells_apart keep.
Proof. repeat split; cbn; congruence. Qed.
Definition node_ (n : list byte) (a : list aval) (k : list seen) : seen :=
  SStruct (str "Node") [(str "name", SStr n); (str "attributes", SList (map SVal a)); (str "children", SList k)].
Example debug_ex : grown Cases.sample /\ grown EqCases.other /\ Cases.sample <> EqCases.other /\
  tree_strict_eq Cases.sample EqCases.other = Some true /\
  debug_tree keep Cases.sample = debug_tree keep EqCases.other /\
  debug_tree keep Cases.sample = Some (node_ [] [] [
    node_ ["a"%byte] [] [node_ ["a"%byte] [] []; node_ ["c"%byte] [VI32 7%Z] []]; node_ ["b"%byte] [] []]).
Proof.
  split; [exact Cases.sample_grown|]. split; [exact EqCases.other_grown|]. split; [vm_compute; discriminate|]. split; [vm_compute; reflexivity|].
  split; vm_compute; reflexivity.
Qed.
End DebugCases.
