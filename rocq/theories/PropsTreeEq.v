(** C38: strict equality of nodes and trees. *)
Require Import Coq.Lists.List Coq.Arith.PeanoNat Coq.Bool.Bool Lia Coq.ZArith.ZArith Coq.NArith.NArith.
Require Import Coq.Init.Byte.
Require Import Verif.Base Verif.BaseFacts Verif.Types Verif.Values Verif.Tree Verif.TreeFacts Verif.TreeSpec Verif.TreeLinks Verif.TreeOps Verif.TreePaths Verif.PropsTree.
Import ListNotations.
Local Open Scope nat_scope.

(** ** Values *)
Lemma list_eqb_eq : forall A (eqb : A -> A -> bool), (forall a b, eqb a b = true <-> a = b) ->
  forall l m, list_eqb eqb l m = true <-> l = m.
Proof.
  intros A eqb H. induction l as [|x l IH]; intros [|y m]; cbn; split; try discriminate; try reflexivity.
  - intros E. apply andb_prop in E as [E1 E2]. apply H in E1. apply IH in E2. congruence.
  - intros E. injection E as -> ->. rewrite (proj2 (H y y) eq_refl), (proj2 (IH m) eq_refl). reflexivity.
Qed.
Lemma bool_eqb_eq : forall a b, Bool.eqb a b = true <-> a = b. Proof. apply Bool.eqb_true_iff. Qed.

(** Two values are strictly equal exactly when they are the same value, bit for bit. *)
Theorem C38_value_strict_eq : forall a b, aval_strict_eq a b = true <-> a = b.
Proof.
  intros a b; destruct a, b; cbn;
    rewrite ?Bool.eqb_true_iff, ?Z.eqb_eq, ?N.eqb_eq, ?bytes_eqb_eq, ?(list_eqb_eq _ _ bool_eqb_eq), ?(list_eqb_eq _ _ Z.eqb_eq), ?(list_eqb_eq _ _ N.eqb_eq);
    split; congruence.
Qed.
Example C38_value_ex : aval_strict_eq (VF32 2143289344%N) (VF32 2143289344%N) = true /\ aval_strict_eq (VF32 0%N) (VF32 2147483648%N) = false.
Proof. vm_compute. auto. Qed.

Lemma attrs_eqb : forall l m, length l = length m ->
  forallb (fun p => aval_strict_eq (fst p) (snd p)) (combine l m) = true <-> l = m.
Proof.
  induction l as [|a l IH]; intros [|b m] E; cbn in *; try discriminate; [tauto|].
  injection E as E. rewrite andb_true_iff, C38_value_strict_eq, (IH m E). split; [intros [-> ->]; reflexivity|intros H; injection H; auto].
Qed.

(** ** The document under a node *)
Fixpoint dnode_ind' (P : dnode -> Prop) (H : forall n a ks, Forall P ks -> P (DNode n a ks)) (d : dnode) : P d :=
  match d with
  | DNode n a ks => H n a ks ((fix go l : Forall P l := match l with [] => Forall_nil _ | k :: l' => Forall_cons _ (dnode_ind' P H k) (go l') end) ks)
  end.

(** A node stands for at most one document. *)
Theorem C38_document_unique : forall t d i e, doc_at t i d -> doc_at t i e -> d = e.
Proof.
  intros t. induction d as [n a ks IH] using dnode_ind'. intros i e D E.
  inversion D as [? ? ? ? N1 A1 K1]; subst. inversion E as [? m b js N2 A2 K2]; subst.
  assert (n = m) by congruence. assert (a = b) by congruence. subst. f_equal. clear D E N1 A1 N2 A2.
  revert js K2. induction K1 as [|c d cs ds H1 F IHF]; intros js K2; inversion K2; subst; [reflexivity|].
  inversion IH; subst. f_equal; eauto.
Qed.

Lemma doc_exists_rose : forall t, wf t -> forall r, rose_at t r -> exists d, doc_at t (rose_id r) d.
Proof.
  intros t W. induction r as [i ks IH] using rose_ind'. intros R. inversion R as [? ? Hi E F]; subst.
  destruct (name_total t i W Hi) as [s N].
  assert (A : exists a, attributes t i = Some a).
  { unfold attributes. destruct (nth_error (tr_arena t) i) eqn:EI; [cbn; eauto|]. apply nth_error_None in EI. unfold node_of in Hi. lia. }
  destruct A as [a A].
  assert (K : exists ds, Forall2 (doc_at t) (map rose_id ks) ds).
  { clear - IH F. induction ks as [|k ks IHk]; [exists []; constructor|].
    inversion IH; subst. inversion F; subst. destruct IHk as [ds HD]; auto. destruct H1 as [d D]; auto. exists (d :: ds). constructor; assumption. }
  destruct K as [ds K]. exists (DNode s a ds). constructor; [exact N|exact A|]. cbn [rose_id] in *. rewrite E. exact K.
Qed.

Theorem C38_document_exists : forall t i, grown t -> node_of t i -> exists d, doc_at t i d.
Proof.
  intros t i G Hi. pose proof (built_wf _ (grown_built _ G)) as W.
  destruct (rose_exists t (wf_links _ W) (grown_acyclic _ G) i Hi) as (r & R & <-). apply doc_exists_rose; assumption.
Qed.

(** ** The comparison *)
Lemma strict_eq_correct : forall t u r, rose_at t r -> forall fuel j d e, length (ids r) <= fuel ->
  doc_at t (rose_id r) d -> doc_at u j e ->
  exists b, nodes_strict_eq fuel t u (rose_id r) j = Some b /\ (b = true <-> d = e).
Proof.
  intros t u. induction r as [i ks IH] using rose_ind'. intros R fuel j d e F D E.
  inversion R as [? ? Hi EC FK]; subst. cbn [rose_id ids] in *. destruct fuel as [|fuel]; [cbn in F; lia|].
  inversion D as [? n a ds N1 A1 K1]; subst. inversion E as [? m b es N2 A2 K2]; subst.
  cbn [nodes_strict_eq]. rewrite N1, N2, A1, A2. cbn [obytes_eqb].
  destruct (bytes_eqb n m) eqn:EN; cbn [negb].
  2: { exists false. split; [reflexivity|]. apply bytes_eqb_neq in EN. split; [discriminate|congruence]. }
  apply bytes_eqb_eq in EN. subst m.
  destruct (Nat.eqb_spec (length a) (length b)) as [EL|EL]; cbn [negb].
  2: { exists false. split; [reflexivity|]. split; [discriminate|congruence]. }
  destruct (forallb _ (combine a b)) eqn:EA; cbn [negb].
  2: { exists false. split; [reflexivity|]. split; [discriminate|]. intros H. injection H as -> _. rewrite (proj2 (attrs_eqb b b eq_refl) eq_refl) in EA. discriminate. }
  apply attrs_eqb in EA; [|exact EL]. subst b. clear EL.
  assert (G : exists b, (fix all (l r : list nat) : option bool :=
               match l, r with
               | [], [] => Some true
               | c :: l', d :: r' => match nodes_strict_eq fuel t u c d with Some true => all l' r' | x => x end
               | _, _ => Some false
               end) (children t i) (children u j) = Some b /\ (b = true <-> ds = es)).
  { rewrite EC in K1 |- *. clear EC D E N1 N2 A1 A2 R Hi.
    assert (FL : length (flat_map ids ks) <= fuel) by (cbn in F; lia). clear F.
    revert ds K1 es K2. generalize (children u j) as cj. induction ks as [|k ks IHk]; intros cj ds K1 es K2; inversion K1; subst; clear K1; inversion K2; subst; clear K2; cbn [map].
    - exists true. tauto.
    - exists false. split; [reflexivity|]. split; discriminate.
    - exists false. split; [reflexivity|]. split; discriminate.
    - inversion IH as [|? ? IH1 IH2]; subst. inversion FK as [|? ? FK1 FK2]; subst. cbn [flat_map] in FL. rewrite app_length in FL.
      edestruct (IH1 FK1 fuel) as (b1 & E1 & B1); [lia|eassumption|eassumption|]. rewrite E1.
      destruct b1.
      + destruct (IHk IH2 FK2 ltac:(lia) _ _ H3 _ H0) as (b2 & E2 & B2). rewrite E2. exists b2. split; [reflexivity|]. rewrite B2.
        assert (y = y0) by tauto. subst. split; [congruence|intros HH; injection HH; auto].
      + exists false. split; [reflexivity|]. split; [discriminate|]. intros HH. injection HH as HH1 _. tauto. }
  destruct G as (b & -> & B). exists b. split; [reflexivity|]. rewrite B. split; [congruence|intros H; injection H; auto].
Qed.

(** For nodes of any two trees built without inserting a node beside its own descendant:
    [strict_eq] returns, and it is true exactly when the two nodes stand for the same
    document (same names, same attributes bit for bit, same children in order). *)
Theorem C38_strict_eq_partial : forall t u i j d e, grown t -> grown u -> node_of t i -> node_of u j ->
  doc_at t i d -> doc_at u j e ->
  exists b, node_strict_eq t u i j = Some b /\ (b = true <-> d = e).
Proof.
  intros t u i j d e GT GU Hi Hj D E. pose proof (wf_links _ (built_wf _ (grown_built _ GT))) as L. pose proof (grown_acyclic _ GT) as AC.
  destruct (rose_exists t L AC i Hi) as (r & R & <-). unfold node_strict_eq. apply (strict_eq_correct t u r R); auto.
  pose proof (ids_length t L AC r R). lia.
Qed.
Theorem C38_tree_strict_eq_partial : forall t u d e, grown t -> grown u ->
  doc_at t (tr_root t) d -> doc_at u (tr_root u) e ->
  exists b, tree_strict_eq t u = Some b /\ (b = true <-> d = e).
Proof.
  intros t u d e GT GU D E. apply (C38_strict_eq_partial t u); auto; apply wf_root; apply built_wf; apply grown_built; assumption.
Qed.

(** Hence an equivalence relation. *)
Theorem C38_equivalence_partial : forall t u v i j k, grown t -> grown u -> grown v -> node_of t i -> node_of u j -> node_of v k ->
  node_strict_eq t t i i = Some true /\
  node_strict_eq t u i j = node_strict_eq u t j i /\
  (node_strict_eq t u i j = Some true -> node_strict_eq u v j k = Some true -> node_strict_eq t v i k = Some true).
Proof.
  intros t u v i j k GT GU GV Hi Hj Hk.
  destruct (C38_document_exists t i GT Hi) as [d D]. destruct (C38_document_exists u j GU Hj) as [e E]. destruct (C38_document_exists v k GV Hk) as [f F].
  destruct (C38_strict_eq_partial t t i i d d) as (b1 & E1 & B1); auto.
  destruct (C38_strict_eq_partial t u i j d e) as (b2 & E2 & B2); auto.
  destruct (C38_strict_eq_partial u t j i e d) as (b3 & E3 & B3); auto.
  destruct (C38_strict_eq_partial u v j k e f) as (b4 & E4 & B4); auto.
  destruct (C38_strict_eq_partial t v i k d f) as (b5 & E5 & B5); auto.
  rewrite E1, E2, E3, E4, E5. split; [f_equal; tauto|]. split.
  - f_equal. destruct b2, b3; try reflexivity; exfalso.
    + assert (false = true); [|discriminate]. apply B3. symmetry. apply B2. reflexivity.
    + assert (false = true); [|discriminate]. apply B2. symmetry. apply B3. reflexivity.
  - intros H2 H4. injection H2 as H2. injection H4 as H4. f_equal. apply B5. apply B2 in H2. apply B4 in H4. congruence.
Qed.

Module EqCases.
  Open Scope byte_scope.
  (** The same document as [Cases.sample] below the root, built in another order. *)
  Definition story : list top :=
    [ OpAppendNew 0 ["b"]; OpPrependNew 0 ["a"]; OpAppendNew 2 ["a"]; OpAppendNew 2 ["c"]; OpSetAttributes 4 [VI32 7%Z] ].
  Definition other : tree := match run_tops story tree_default with Some t => t | None => tree_default end.
  Lemma other_run : run_tops story tree_default = Some other. Proof. vm_compute. reflexivity. Qed.
  Lemma other_grown : grown other.
  Proof. apply (run_tops_grown story tree_default); [constructor|reflexivity|exact other_run]. Qed.
End EqCases.
Example C38_ex : grown Cases.sample /\ grown EqCases.other /\ Cases.sample <> EqCases.other /\
  tree_strict_eq Cases.sample EqCases.other = Some true /\ node_strict_eq Cases.sample EqCases.other 1 1 = Some false /\
  exists d, doc_at Cases.sample 0 d.
Proof.
  split; [exact Cases.sample_grown|]. split; [exact EqCases.other_grown|].
  split; [vm_compute; discriminate|]. split; [vm_compute; reflexivity|]. split; [vm_compute; reflexivity|].
  apply C38_document_exists; [exact Cases.sample_grown|]. vm_compute. lia.
Qed.

(** Without the proviso the full claim fails: on a tree with a cycle the comparison never
    returns, whatever the number of levels it may descend. *)
Theorem C38_cycle_refuted : exists t i, built t /\ node_of t i /\ forall fuel, nodes_strict_eq fuel t t i i = None.
Proof.
  exists Cases.looped, 1. split; [exact Cases.looped_built|]. split; [vm_compute; lia|].
  assert (C1 : children Cases.looped 1 = [2]) by (vm_compute; reflexivity).
  assert (C2 : children Cases.looped 2 = [3; 1]) by (vm_compute; reflexivity).
  assert (N1 : name Cases.looped 1 = Some ["a"%byte]) by (vm_compute; reflexivity).
  assert (N2 : name Cases.looped 2 = Some ["b"%byte]) by (vm_compute; reflexivity).
  assert (A1 : attributes Cases.looped 1 = Some []) by (vm_compute; reflexivity).
  assert (A2 : attributes Cases.looped 2 = Some []) by (vm_compute; reflexivity).
  assert (G : forall fuel, nodes_strict_eq fuel Cases.looped Cases.looped 1 1 = None /\ nodes_strict_eq fuel Cases.looped Cases.looped 2 2 = None).
  { induction fuel as [|fuel [IH1 IH2]]; [split; reflexivity|]. cbn [nodes_strict_eq].
    rewrite N1, N2, A1, A2, C1, C2. cbn [obytes_eqb]. rewrite !bytes_eqb_refl. cbn [negb length Nat.eqb combine forallb].
    rewrite IH1, IH2. split; [reflexivity|].
    destruct fuel as [|fuel]; [reflexivity|].
    assert (E3 : nodes_strict_eq (S fuel) Cases.looped Cases.looped 3 3 = Some true).
    { cbn [nodes_strict_eq].
      replace (name Cases.looped 3) with (Some ["c"%byte]) by (vm_compute; reflexivity).
      replace (attributes Cases.looped 3) with (Some (@nil aval)) by (vm_compute; reflexivity).
      replace (children Cases.looped 3) with (@nil nat) by (vm_compute; reflexivity). reflexivity. }
    rewrite E3. reflexivity. }
  intros fuel. apply G.
Qed.
