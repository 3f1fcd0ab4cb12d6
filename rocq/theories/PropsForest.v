(** C84: every editing call does to the document what its name says, so a session of them can be
    understood without the links between nodes.  C35, C36 and C40 tell what a call does to the
    links and contents; here it is told what becomes of the document under any node. *)
Require Import Coq.Lists.List Coq.NArith.NArith Coq.ZArith.ZArith Coq.Arith.PeanoNat Coq.Bool.Bool Lia.
Require Import Coq.Init.Byte.
Require Import Verif.Base Verif.BaseFacts Verif.Utf8 Verif.Types Verif.Io Verif.IoFacts Verif.Parser Verif.MonadFacts Verif.ParserSteps Verif.ParserShape Verif.ParserSafe Verif.SpecHist Verif.ParserHist Verif.Loaders Verif.Zlib Verif.Moves Verif.Spec Verif.SpecFacts Verif.ParserPos Verif.AttrLoad Verif.DocCursor Verif.FooterFacts Verif.DocTrace Verif.PropsDoc Verif.PropsSafety Verif.Writer Verif.WriterSpec Verif.WriterNodes Verif.WriterTotal Verif.PropsWriter Verif.PropsRound Verif.PropsSink Verif.Tree Verif.TreeFacts Verif.TreeSpec Verif.TreeLinks Verif.TreeOps Verif.TreePaths Verif.PropsTree Verif.PropsTreeEq Verif.TreeIo Verif.TreeIoSpec Verif.TreeWrite Verif.TreeLoad Verif.TreeRound Verif.Samples Verif.LoadTyped Verif.PropsTreeIo Verif.PropsTraverse.
Import ListNotations.
Local Open Scope nat_scope.

(** ** Specification *)

(** A document whose nodes carry their IDs. *)
Inductive idoc := INode (i : nat) (nm : list byte) (ats : list aval) (ks : list idoc).
Definition iid (d : idoc) : nat := match d with INode i _ _ _ => i end.
(** The tree holds this document. *)
Inductive idoc_at (t : tree) : idoc -> Prop :=
| idoc_at_i : forall i nm ats ks, node_of t i -> name t i = Some nm -> attributes t i = Some ats ->
    children t i = map iid ks -> Forall (idoc_at t) ks -> idoc_at t (INode i nm ats ks).
(** The document without the IDs. *)
Fixpoint strip (d : idoc) : dnode := match d with INode _ nm ats ks => DNode nm ats (map strip ks) end.

(** Edits of a document: of the list of children of each node, of the attributes of one. *)
Fixpoint rekid (h : nat -> list idoc -> list idoc) (d : idoc) : idoc :=
  match d with INode i nm ats ks => INode i nm ats (h i (map (rekid h) ks)) end.
Fixpoint revalue (p : nat) (g : list aval -> list aval) (d : idoc) : idoc :=
  match d with INode i nm ats ks => INode i nm (if Nat.eqb i p then g ats else ats) (map (revalue p g) ks) end.
Definition drop (x : nat) (l : list idoc) : list idoc := filter (fun k => negb (Nat.eqb (iid k) x)) l.
Definition at_end (p : nat) (e : idoc) (q : nat) (l : list idoc) : list idoc := if Nat.eqb q p then l ++ [e] else l.
Definition at_start (p : nat) (e : idoc) (q : nat) (l : list idoc) : list idoc := if Nat.eqb q p then e :: l else l.
Fixpoint after (y : nat) (e : idoc) (l : list idoc) : list idoc :=
  match l with [] => [] | k :: l => if Nat.eqb (iid k) y then k :: e :: l else k :: after y e l end.
Fixpoint before (y : nat) (e : idoc) (l : list idoc) : list idoc :=
  match l with [] => [] | k :: l => if Nat.eqb (iid k) y then e :: k :: l else k :: before y e l end.
Fixpoint replace (k : nat) (v : aval) (l : list aval) : list aval :=
  match l, k with
  | [], _ => []
  | _ :: l, O => v :: l
  | a :: l, S k => a :: replace k v l
  end.

(** What a call does to a document, where [e] is what is put somewhere: the document of the node
    that is moved, or the new node. *)
Definition edit (o : top) (e d : idoc) : idoc :=
  match o with
  | OpCreate _ => d
  | OpAppend x p => rekid (fun q l => at_end p e q (drop x l)) d
  | OpPrepend x p => rekid (fun q l => at_start p e q (drop x l)) d
  | OpInsertAfter x y => rekid (fun _ l => after y e (drop x l)) d
  | OpInsertBefore x y => rekid (fun _ l => before y e (drop x l)) d
  | OpAppendNew p _ => rekid (fun q l => at_end p e q l) d
  | OpPrependNew p _ => rekid (fun q l => at_start p e q l) d
  | OpInsertNewAfter y _ => rekid (fun _ l => after y e l) d
  | OpInsertNewBefore y _ => rekid (fun _ l => before y e l) d
  | OpDetach x => rekid (fun _ l => drop x l) d
  | OpAppendAttribute i v => revalue i (fun l => l ++ [v]) d
  | OpAssignAttribute i k v => revalue i (replace k v) d
  | OpTakeAttributes i => revalue i (fun _ => []) d
  | OpSetAttributes i l => revalue i (fun _ => l) d
  end.
Definition brings (t t' : tree) (o : top) (e : idoc) : Prop :=
  match o with
  | OpAppend x _ | OpPrepend x _ | OpInsertAfter x _ | OpInsertBefore x _ | OpDetach x => idoc_at t e /\ iid e = x
  | OpCreate s | OpAppendNew _ s | OpPrependNew _ s | OpInsertNewAfter _ s | OpInsertNewBefore _ s =>
      exists x, ~ node_of t x /\ node_of t' x /\ e = INode x s [] []
  | _ => True
  end.
(** The calls that edit attributes only. *)
Definition on_attributes (o : top) : bool :=
  match o with OpAppendAttribute _ _ | OpAssignAttribute _ _ _ | OpTakeAttributes _ | OpSetAttributes _ _ => true | _ => false end.
(** [insert_before] inserts after: [C35_insert_before_refuted]. *)
Definition not_before (o : top) : Prop := match o with OpInsertBefore _ _ => False | _ => True end.

(** ** Proofs *)

Fixpoint idoc_ind' (P : idoc -> Prop) (H : forall i n a ks, Forall P ks -> P (INode i n a ks)) (d : idoc) : P d :=
  match d with
  | INode i n a ks => H i n a ks ((fix go l : Forall P l := match l with [] => Forall_nil _ | k :: l' => Forall_cons _ (idoc_ind' P H k) (go l') end) ks)
  end.
Fixpoint shape (d : idoc) : rose := match d with INode i _ _ ks => Rose i (map shape ks) end.
Lemma shape_id : forall d, rose_id (shape d) = iid d. Proof. intros [i n a ks]. reflexivity. Qed.
Lemma shape_at : forall t d, idoc_at t d -> rose_at t (shape d).
Proof.
  intros t. induction d as [i n a ks IH] using idoc_ind'. intros H. inversion H as [? ? ? ? Hi HN HA HC HK]; subst.
  cbn [shape]. constructor; [exact Hi| |].
  - rewrite HC, map_map. apply map_ext. intros k. symmetry. apply shape_id.
  - rewrite Forall_forall in *. intros r Hr. apply in_map_iff in Hr as (k & <- & Hk). auto.
Qed.
(** The same shape and contents. *)
Lemma idoc_stays : forall t t' d, idoc_at t d -> rose_at t' (shape d) ->
  (forall i, node_of t i -> name t' i = name t i /\ attributes t' i = attributes t i) -> idoc_at t' d.
Proof.
  intros t t' d H R C. revert H R. induction d as [i n a ks IH] using idoc_ind'. intros H R.
  inversion H as [? ? ? ? Hi HN HA HC HK]; subst. cbn [shape] in R. inversion R as [? ? Ri RC RK]; subst.
  destruct (C i Hi) as [C1 C2]. constructor; [exact Ri|congruence|congruence| |].
  - rewrite RC, map_map. apply map_ext. exact shape_id.
  - rewrite Forall_forall in *. intros k Hk. apply IH; auto. apply RK. apply in_map. exact Hk.
Qed.

Lemma rekid_id : forall h d, iid (rekid h d) = iid d. Proof. intros h [i n a ks]. reflexivity. Qed.
Lemma map_rekid_id : forall h l, map iid (map (rekid h) l) = map iid l.
Proof. intros h l. rewrite map_map. apply map_ext. apply rekid_id. Qed.

Section Rekid.
Context (t t' : tree) (h : nat -> list idoc -> list idoc) (H : nat -> list nat -> list nat) (e : idoc).
Context (HH : forall q l, map iid (h q l) = H q (map iid l)) (Hin : forall q l d, In d (h q l) -> In d l \/ d = e).
Context (HE : idoc_at t' e).
Context (HN : forall i, node_of t i -> node_of t' i /\ name t' i = name t i /\ attributes t' i = attributes t i).
Context (HC : forall i, node_of t i -> children t' i = H i (children t i)).
Lemma rekid_at : forall d, idoc_at t d -> idoc_at t' (rekid h d).
Proof.
  induction d as [i n a ks IH] using idoc_ind'. intros D. inversion D as [? ? ? ? Di DN DA DC DK]; subst.
  destruct (HN i Di) as (N1 & N2 & N3). cbn [rekid]. constructor; [exact N1|congruence|congruence| |].
  - rewrite HC, HH, map_rekid_id, DC by exact Di. reflexivity.
  - rewrite Forall_forall in *. intros k Hk. apply Hin in Hk as [Hk | ->]; [|exact HE]. apply in_map_iff in Hk as (k0 & <- & Hk). auto.
Qed.
End Rekid.

Lemma drop_ids : forall x l, map iid (drop x l) = without x (map iid l).
Proof.
  intros x l. unfold drop, without. induction l as [|k l IH]; [reflexivity|]. cbn [filter map remove].
  destruct (Nat.eq_dec x (iid k)) as [E|E].
  - rewrite <- E, Nat.eqb_refl. exact IH.
  - destruct (Nat.eqb_spec (iid k) x) as [E'|_]; [congruence|]. cbn [negb map]. rewrite IH. reflexivity.
Qed.
Lemma drop_in : forall x l d, In d (drop x l) -> In d l. Proof. intros x l d H. apply filter_In in H. apply H. Qed.
Lemma after_ids : forall y e l, map iid (after y e l) = put_after y (iid e) (map iid l).
Proof. intros y e. induction l as [|k l IH]; [reflexivity|]. cbn. destruct (Nat.eqb (iid k) y); cbn; [reflexivity|rewrite IH; reflexivity]. Qed.
Lemma before_ids : forall y e l, map iid (before y e l) = put_before y (iid e) (map iid l).
Proof. intros y e. induction l as [|k l IH]; [reflexivity|]. cbn. destruct (Nat.eqb (iid k) y); cbn; [reflexivity|rewrite IH; reflexivity]. Qed.
Lemma after_in : forall y e l d, In d (after y e l) -> In d l \/ d = e.
Proof. intros y e. induction l as [|k l IH]; intros d; [intros []|]. cbn. destruct (Nat.eqb (iid k) y); cbn; [intuition|]. intros [->|X]; [auto|]. apply IH in X. intuition. Qed.
Lemma before_in : forall y e l d, In d (before y e l) -> In d l \/ d = e.
Proof. intros y e. induction l as [|k l IH]; intros d; [intros []|]. cbn. destruct (Nat.eqb (iid k) y); cbn; [intuition|]. intros [->|X]; [auto|]. apply IH in X. intuition. Qed.
Lemma at_end_ids : forall p e q l, map iid (at_end p e q l) = map iid l ++ (if Nat.eqb q p then [iid e] else []).
Proof. intros. unfold at_end. destruct (Nat.eqb q p); [apply map_app|rewrite app_nil_r; reflexivity]. Qed.
Lemma at_start_ids : forall p e q l, map iid (at_start p e q l) = (if Nat.eqb q p then [iid e] else []) ++ map iid l.
Proof. intros. unfold at_start. destruct (Nat.eqb q p); reflexivity. Qed.
Lemma at_end_in : forall p e q l d, In d (at_end p e q l) -> In d l \/ d = e.
Proof. intros p e q l d. unfold at_end. destruct (Nat.eqb q p); [rewrite in_app_iff; cbn; intuition|auto]. Qed.
Lemma at_start_in : forall p e q l d, In d (at_start p e q l) -> In d l \/ d = e.
Proof. intros p e q l d. unfold at_start. destruct (Nat.eqb q p); cbn; intuition. Qed.

Lemma replace_spec : forall l1 m l2 v, replace (length l1) v (l1 ++ m :: l2) = l1 ++ v :: l2.
Proof. induction l1 as [|a l1 IH]; intros m l2 v; [reflexivity|]. cbn. rewrite IH. reflexivity. Qed.
Lemma replace_none : forall l k v, nth_error l k = None -> replace k v l = l.
Proof. induction l as [|a l IH]; intros [|k] v H; cbn in *; try discriminate; try reflexivity. rewrite IH by exact H. reflexivity. Qed.

Lemma revalue_id : forall p g d, iid (revalue p g d) = iid d. Proof. intros p g [i n a ks]. reflexivity. Qed.
Lemma revalue_at : forall t t' p g, only_attributes t t' p -> (forall l, attributes t p = Some l -> attributes t' p = Some (g l)) ->
  forall d, idoc_at t d -> idoc_at t' (revalue p g d).
Proof.
  intros t t' p g (_ & SN & _ & CH & _ & NM & AT) HG. induction d as [i n a ks IH] using idoc_ind'. intros D.
  inversion D as [? ? ? ? Di DN DA DC DK]; subst. cbn [revalue]. constructor; [apply SN; exact Di|rewrite NM; exact DN| | |].
  - destruct (Nat.eqb_spec i p) as [->|N]; [auto|]. rewrite AT by exact N. exact DA.
  - rewrite CH, DC, map_map. apply map_ext. intros k. symmetry. apply revalue_id.
  - rewrite Forall_forall in *. intros k Hk. apply in_map_iff in Hk as (k0 & <- & Hk). auto.
Qed.

Lemma new_leaf : forall t t' s x, linked t -> linked t' -> creates t t' s x -> (forall i, i <> x -> parent t' i = parent t i) ->
  parent t' x <> Some x -> idoc_at t' (INode x s [] []).
Proof.
  intros t t' s x L L' (NX & SN & _ & _ & NM & AT) P PX. constructor; [apply SN; auto|exact NM|exact AT| |constructor].
  destruct (children t' x) as [|c l] eqn:E; [reflexivity|exfalso]. assert (HC : In c (children t' x)) by (rewrite E; left; reflexivity).
  apply (child_parent t' L') in HC. destruct (Nat.eq_dec c x) as [->|N]; [contradiction|]. rewrite P in HC by exact N.
  apply (child_parent t L) in HC. apply NX. apply (children_used t L _ _ HC).
Qed.
Lemma creates_same : forall t t' s x y, creates t t' s x -> ~ node_of t y -> node_of t' y -> y = x.
Proof. intros t t' s x y (_ & SN & _) H1 H2. apply SN in H2. tauto. Qed.
Lemma creates_old : forall t t' s x, creates t t' s x ->
  forall i, node_of t i -> node_of t' i /\ name t' i = name t i /\ attributes t' i = attributes t i.
Proof. intros t t' s x (_ & SN & _ & C & _) i Hi. split; [apply SN; auto|apply C; exact Hi]. Qed.
Lemma moved_old : forall t t', same_nodes t t' -> same_contents t t' ->
  forall i, node_of t i -> node_of t' i /\ name t' i = name t i /\ attributes t' i = attributes t i.
Proof. intros t t' SN [_ C] i Hi. split; [apply SN; exact Hi|apply C; exact Hi]. Qed.

(** In a tree built without putting a node beside its own descendant: if [d] was the document
    under a node, then after the call the document under it is the edited [d]; what the call
    brings stays what it was. *)
Theorem C84_edit_partial : forall t o t' d e, grown t -> sane o t -> not_before o -> run_top o t = Some t' ->
  idoc_at t d -> brings t t' o e -> idoc_at t' (edit o e d) /\ (on_attributes o = false -> idoc_at t' e).
Proof.
  intros t o t' d e G SA NB R D BR. pose proof (grown_built _ G) as B. pose proof (built_wf _ B) as W. pose proof (wf_links _ W) as L.
  pose proof (grown_op _ _ _ G SA R) as G'. pose proof (wf_links _ (built_wf _ (grown_built _ G'))) as L'.
  assert (CY : forall i, parent t' i <> Some i).
  { intros i E. apply (C34_no_cycle_partial _ G' _ _ E). constructor. }
  assert (MV : same_nodes t t' -> same_contents t t' -> (forall r, rose_at t r -> rose_id r = iid e -> rose_at t' r) ->
    idoc_at t e -> idoc_at t' e).
  { intros SN [_ C] K E. apply (idoc_stays t t' e E); [|exact C]. apply K; [apply shape_at; exact E|apply shape_id]. }
  destruct o as [s|x p|x p|x y|x y|p s|p s|y s|y s|x|i v|i k v|i|i l]; cbn [run_top edit brings on_attributes not_before sane] in *; try contradiction.
  - (* create *)
    injection R as R. destruct BR as (x & N1 & N2 & ->). destruct (create_node s t) as [n t1] eqn:C. cbn [snd] in R. subst t1.
    destruct (create_effect _ _ _ _ W C) as (_ & EX & LA & RT & P & CH & _ & OLD & _ & NM & AT).
    assert (CR : creates t t' s n).
    { split; [unfold node_of; lia|]. split; [intros i; unfold node_of; lia|]. auto. }
    rewrite (creates_same _ _ _ _ _ CR N1 N2). split; [|intros _; apply (new_leaf t t' s n); auto].
    assert (E : rekid (fun _ l => l) d = d).
    { clear. induction d as [i n a ks IH] using idoc_ind'. cbn [rekid]. f_equal. rewrite <- (map_id ks) at 2. apply map_ext_in. rewrite Forall_forall in IH. exact IH. }
    rewrite <- E. apply (rekid_at t t' (fun _ l => l) (fun _ l => l) (INode n s [] [])); auto.
    + apply (new_leaf t t' s n); auto.
    + apply (creates_old _ _ _ _ CR).
  - (* append *)
    destruct BR as [BE BX]. destruct (C35_append t t' B x p R) as (SN & SC & CH & _ & _ & KEEP).
    assert (E : idoc_at t' e) by (apply MV; auto; intros r R1 R2; apply KEEP; auto; congruence). split; [|auto].
    apply (rekid_at t t' _ (fun q l => without x l ++ (if Nat.eqb q p then [x] else [])) e); auto.
    + intros q l. rewrite at_end_ids, drop_ids, BX. reflexivity.
    + intros q l z Hz. apply at_end_in in Hz as [Hz|Hz]; eauto using drop_in.
    + apply moved_old; assumption.
  - (* prepend *)
    destruct BR as [BE BX]. destruct (C35_prepend t t' B x p R) as (SN & SC & CH & _ & _ & KEEP).
    assert (E : idoc_at t' e) by (apply MV; auto; intros r R1 R2; apply KEEP; auto; congruence). split; [|auto].
    apply (rekid_at t t' _ (fun q l => (if Nat.eqb q p then [x] else []) ++ without x l) e); auto.
    + intros q l. rewrite at_start_ids, drop_ids, BX. reflexivity.
    + intros q l z Hz. apply at_start_in in Hz as [Hz|Hz]; eauto using drop_in.
    + apply moved_old; assumption.
  - (* insert_after *)
    destruct BR as [BE BX]. destruct (C35_insert_after t t' B x y R) as (SN & SC & CH & _ & _ & KEEP).
    assert (E : idoc_at t' e) by (apply MV; auto; intros r R1 R2; apply KEEP; auto; congruence). split; [|auto].
    apply (rekid_at t t' _ (fun q l => put_after y x (without x l)) e); auto.
    + intros q l. rewrite after_ids, drop_ids, BX. reflexivity.
    + intros q l z Hz. apply after_in in Hz as [Hz|Hz]; eauto using drop_in.
    + apply moved_old; assumption.
  - (* append_new *)
    destruct BR as (x & N1 & N2 & ->). destruct (append_new p s t) as [[n t1]|] eqn:C; [|discriminate]. injection R as ->.
    destruct (C35_append_new t p s n t' B C) as (CR & _ & P & CH). rewrite (creates_same _ _ _ _ _ CR N1 N2).
    assert (E : idoc_at t' (INode n s [] [])) by (apply (new_leaf t t' s n); auto). split; [|auto].
    apply (rekid_at t t' _ (fun q l => l ++ (if Nat.eqb q p then [n] else [])) (INode n s [] [])); auto.
    + intros q l. apply at_end_ids.
    + intros q l z. apply at_end_in.
    + apply (creates_old _ _ _ _ CR).
  - (* prepend_new *)
    destruct BR as (x & N1 & N2 & ->). destruct (prepend_new p s t) as [[n t1]|] eqn:C; [|discriminate]. injection R as ->.
    destruct (C35_prepend_new t p s n t' B C) as (CR & _ & P & CH). rewrite (creates_same _ _ _ _ _ CR N1 N2).
    assert (E : idoc_at t' (INode n s [] [])) by (apply (new_leaf t t' s n); auto). split; [|auto].
    apply (rekid_at t t' _ (fun q l => (if Nat.eqb q p then [n] else []) ++ l) (INode n s [] [])); auto.
    + intros q l. apply at_start_ids.
    + intros q l z. apply at_start_in.
    + apply (creates_old _ _ _ _ CR).
  - (* insert_new_after *)
    destruct BR as (x & N1 & N2 & ->). destruct (insert_new_after y s t) as [[n t1]|] eqn:C; [|discriminate]. injection R as ->.
    destruct (C35_insert_new_after t y s n t' B C) as (CR & _ & _ & P & CH & _). rewrite (creates_same _ _ _ _ _ CR N1 N2).
    assert (E : idoc_at t' (INode n s [] [])) by (apply (new_leaf t t' s n); auto). split; [|auto].
    apply (rekid_at t t' _ (fun q l => put_after y n l) (INode n s [] [])); auto.
    + intros q l. apply after_ids.
    + intros q l z. apply after_in.
    + apply (creates_old _ _ _ _ CR).
  - (* insert_new_before *)
    destruct BR as (x & N1 & N2 & ->). destruct (insert_new_before y s t) as [[n t1]|] eqn:C; [|discriminate]. injection R as ->.
    destruct (C35_insert_new_before t y s n t' B C) as (CR & _ & _ & P & CH & _). rewrite (creates_same _ _ _ _ _ CR N1 N2).
    assert (E : idoc_at t' (INode n s [] [])) by (apply (new_leaf t t' s n); auto). split; [|auto].
    apply (rekid_at t t' _ (fun q l => put_before y n l) (INode n s [] [])); auto.
    + intros q l. apply before_ids.
    + intros q l z. apply before_in.
    + apply (creates_old _ _ _ _ CR).
  - (* detach *)
    destruct BR as [BE BX]. destruct (C36_detach t x t' B R) as (SN & SC & CH & _ & _ & _ & KEEP).
    assert (E : idoc_at t' e) by (apply MV; auto; intros r R1 R2; apply KEEP; auto; congruence). split; [|auto].
    apply (rekid_at t t' _ (fun q l => without x l) e); auto.
    + intros q l. apply drop_ids.
    + intros q l z Hz. eauto using drop_in.
    + apply moved_old; assumption.
  - split; [|discriminate]. destruct (C40_append_attribute t t' B i v R) as (O & _ & l0 & A & A').
    apply (revalue_at t t' i _ O); [|exact D]. intros l HL. congruence.
  - split; [|discriminate]. destruct (assign_attribute i k v t) as [[old t1]|] eqn:C; [|discriminate]. injection R as ->.
    destruct (C40_assign_attribute t t' B i k v old C) as (O & l0 & A & EO & A1 & A2).
    apply (revalue_at t t' i _ O); [|exact D]. intros l HL. assert (l = l0) by congruence. subst l0.
    destruct (nth_error l k) as [m|] eqn:EN.
    + destruct (A1 m eq_refl) as (l1 & l2 & E1 & E2 & E3). rewrite E3, E1, <- E2, replace_spec. reflexivity.
    + rewrite A2, replace_none by auto. reflexivity.
  - split; [|discriminate]. destruct (take_attributes i t) as [[l t1]|] eqn:C; [|discriminate]. injection R as ->.
    destruct (C40_take_attributes t t' B i l C) as (O & _ & A). apply (revalue_at t t' i _ O); auto.
  - split; [|discriminate]. destruct (C40_set_attributes t t' B i l R) as (O & A). apply (revalue_at t t' i _ O); auto.
Qed.

(** Each node stands for exactly one such document, and it is the one of C38 with IDs. *)
Theorem C84_documents : forall t i, grown t -> node_of t i ->
  exists d, idoc_at t d /\ iid d = i /\ doc_at t i (strip d) /\ forall d', idoc_at t d' -> iid d' = i -> d' = d.
Proof.
  intros t i G Hi. pose proof (built_wf _ (grown_built _ G)) as W. destruct (C39_subtree t i G Hi) as (r & R & <-). clear Hi.
  assert (X : exists d, idoc_at t d /\ shape d = r).
  { revert R. induction r as [i ks IH] using rose_ind'. intros R. inversion R as [? ? Hi E F]; subst.
    destruct (name_total t i W Hi) as [s N].
    assert (A : exists a, attributes t i = Some a).
    { unfold attributes. destruct (nth_error (tr_arena t) i) eqn:EI; [cbn; eauto|]. apply nth_error_None in EI. unfold node_of in Hi. lia. }
    destruct A as [a A].
    assert (K : exists ds, Forall (idoc_at t) ds /\ map shape ds = ks).
    { clear - IH F. induction ks as [|k ks IHk]; [exists []; split; [constructor|reflexivity]|].
      inversion IH; subst. inversion F; subst. destruct IHk as (ds & D1 & D2); auto. destruct H1 as (d & D3 & D4); auto.
      exists (d :: ds). split; [constructor; assumption|]. cbn. congruence. }
    destruct K as (ds & K1 & <-). exists (INode i s a ds). split; [|reflexivity]. constructor; auto.
    rewrite E, map_map. apply map_ext. exact shape_id. }
  destruct X as (d & D & <-). exists d. split; [exact D|]. split; [symmetry; apply shape_id|]. rewrite shape_id. split.
  - clear R. revert D. induction d as [i n a ks IH] using idoc_ind'. intros D. inversion D as [? ? ? ? Di DN DA DC DK]; subst.
    cbn [strip iid]. constructor; [exact DN|exact DA|]. rewrite DC. clear - IH DK.
    induction ks as [|k ks IHk]; [constructor|]. inversion IH; subst. inversion DK; subst. cbn [map]. constructor; auto.
  - clear R. revert D. induction d as [i n a ks IH] using idoc_ind'. intros D d' D' E. inversion D as [? ? ? ? Di DN DA DC DK]; subst.
    inversion D' as [i' ? ? ks' Di' DN' DA' DC' DK']; subst. cbn [iid] in *. subst i'. assert (nm = n) by congruence. assert (ats = a) by congruence. subst.
    f_equal. rewrite DC in DC'. clear - IH DK DC' DK'. revert ks' DC' DK'. induction ks as [|k ks IHk]; intros [|k' ks'] E DK'; try discriminate; [reflexivity|].
    injection E as E1 E2. inversion IH; subst. inversion DK; subst. inversion DK'; subst. f_equal; [apply H1; auto|apply IHk; auto].
Qed.

(** So there always is a document for a call to bring. *)
Theorem C84_brings : forall t o t', grown t -> run_top o t = Some t' -> exists e, brings t t' o e.
Proof.
  intros t o t' G R. pose proof (grown_built _ G) as B. pose proof (built_wf _ B) as W.
  assert (K : forall x, node_of t x -> exists e, idoc_at t e /\ iid e = x).
  { intros x Hx. destruct (C84_documents t x G Hx) as (e & E1 & E2 & _). eauto. }
  assert (N : forall s n, creates t t' s n -> exists e x, ~ node_of t x /\ node_of t' x /\ e = INode x s [] []).
  { intros s n (N1 & N2 & _). exists (INode n s [] []), n. split; [exact N1|]. split; [apply N2; auto|reflexivity]. }
  destruct o as [s|x p|x p|x y|x y|p s|p s|y s|y s|x|i v|i k v|i|i l]; cbn [run_top brings] in *; try (exists (INode 0 [] [] []); exact I).
  - injection R as R. destruct (create_node s t) as [n t1] eqn:C. cbn [snd] in R. subst t1.
    destruct (create_effect _ _ _ _ W C) as (_ & EX & LA & RT & P & CH & _ & OLD & _ & NM & AT). apply (N s n).
    split; [unfold node_of; lia|]. split; [intros i; unfold node_of; lia|]. auto.
  - apply K. apply used_lt. destruct (used (tr_arena t) x) eqn:U; [reflexivity|]. unfold append, a_append in R. rewrite U, andb_false_r in R. discriminate.
  - apply K. apply used_lt. destruct (used (tr_arena t) x) eqn:U; [reflexivity|]. unfold prepend, a_prepend in R. rewrite U, andb_false_r in R. discriminate.
  - apply K. apply used_lt. destruct (used (tr_arena t) x) eqn:U; [reflexivity|]. unfold insert_after, a_insert_after in R. rewrite U, andb_false_r in R. discriminate.
  - apply K. apply used_lt. destruct (used (tr_arena t) x) eqn:U; [reflexivity|]. unfold insert_before, a_insert_after in R. rewrite U, andb_false_r in R. discriminate.
  - destruct (append_new p s t) as [[n t1]|] eqn:C; [|discriminate]. injection R as ->. apply (N s n). apply (C35_append_new t p s n t' B C).
  - destruct (prepend_new p s t) as [[n t1]|] eqn:C; [|discriminate]. injection R as ->. apply (N s n). apply (C35_prepend_new t p s n t' B C).
  - destruct (insert_new_after y s t) as [[n t1]|] eqn:C; [|discriminate]. injection R as ->. apply (N s n). apply (C35_insert_new_after t y s n t' B C).
  - destruct (insert_new_before y s t) as [[n t1]|] eqn:C; [|discriminate]. injection R as ->. apply (N s n). apply (C35_insert_new_before t y s n t' B C).
  - apply K. destruct (Nat.lt_ge_cases x (length (tr_arena t))) as [H|H]; [exact H|]. exfalso.
    assert (E : detach x t = None) by (apply C36_panics; unfold node_of; lia). congruence.
Qed.

(** ** Sessions *)

(** [d] becomes [d'] by a history of calls that turns [t] into [t']. *)
Inductive edits : tree -> idoc -> tree -> idoc -> Prop :=
| edits_none : forall t d, edits t d t d
| edits_one : forall t d o t1 e t' d', sane o t -> not_before o -> run_top o t = Some t1 -> brings t t1 o e ->
    edits t1 (edit o e d) t' d' -> edits t d t' d'.

Lemma edit_id : forall o e d, iid (edit o e d) = iid d.
Proof. intros [] e d; cbn [edit]; try apply rekid_id; try apply revalue_id. reflexivity. Qed.
Lemma root_stays : forall o t t', run_top o t = Some t' -> tr_root t' = tr_root t.
Proof.
  assert (LA : forall t a t', lift_arena t a = Some t' -> tr_root t' = tr_root t).
  { intros t [a|] t' H; [|discriminate]. injection H as <-. reflexivity. }
  assert (CN : forall s t, tr_root (snd (create_node s t)) = tr_root t).
  { intros s t. unfold create_node. destruct (intern (tr_names t) s). reflexivity. }
  assert (NW : forall s t a t', option_map snd (let '(x, t1) := create_node s t in option_map (pair x) (lift_arena t1 (a x t1))) = Some t' -> tr_root t' = tr_root t).
  { intros s t a t' H. specialize (CN s t). destruct (create_node s t) as [x t1]. cbn [snd] in CN.
    destruct (lift_arena t1 (a x t1)) as [t2|] eqn:E; [|discriminate]. injection H as <-. rewrite (LA _ _ _ E). exact CN. }
  intros [s|x p|x p|x y|x y|p s|p s|y s|y s|x|i v|i k v|i|i l] t t' H; cbn [run_top] in H.
  - injection H as <-. apply CN.
  - eapply LA; exact H.
  - eapply LA; exact H.
  - eapply LA; exact H.
  - eapply LA; exact H.
  - apply (NW s t (fun x t1 => a_append p x (tr_arena t1))). exact H.
  - apply (NW s t (fun x t1 => a_prepend p x (tr_arena t1))). exact H.
  - unfold insert_new_after in H. destruct (Nat.eqb y (tr_root t)); [discriminate|]. apply (NW s t (fun x t1 => a_insert_after y x (tr_arena t1))). exact H.
  - unfold insert_new_before in H. destruct (Nat.eqb y (tr_root t)); [discriminate|]. apply (NW s t (fun x t1 => a_insert_before y x (tr_arena t1))). exact H.
  - eapply LA; exact H.
  - unfold append_attribute in H. destruct (Nat.eqb i (tr_root t)); [discriminate|]. destruct (used (tr_arena t) i); [|discriminate]. injection H as <-. reflexivity.
  - unfold assign_attribute in H. destruct (nth_error (tr_arena t) i); [|discriminate]. injection H as <-. reflexivity.
  - unfold take_attributes in H. destruct (nth_error (tr_arena t) i); [|discriminate]. injection H as <-. reflexivity.
  - unfold set_attributes in H. destruct (used (tr_arena t) i); [|discriminate]. injection H as <-. reflexivity.
Qed.

(** After a session of edits the tree holds the document edited in the same way. *)
Theorem C84_session_partial : forall t d t' d', grown t -> idoc_at t d -> edits t d t' d' ->
  grown t' /\ idoc_at t' d' /\ iid d' = iid d /\ tr_root t' = tr_root t.
Proof.
  intros t d t' d' G D H. induction H as [t d|t d o t1 e t' d' SA NB R BR H IH]; [auto|].
  destruct (C84_edit_partial t o t1 d e G SA NB R D BR) as [D1 _]. destruct (IH (grown_op _ _ _ G SA R) D1) as (G' & D' & E1 & E2).
  split; [exact G'|]. split; [exact D'|]. split; [rewrite E1; apply edit_id|rewrite E2; apply (root_stays o); exact R].
Qed.

Section WithEnv.
Context {env : Env}.

(** Load, edit, save, load: a tree that was loaded (or built in any other way) holds the document
    [d] under its root; it is edited and written; what is loaded from the file written is the
    document [d], edited in the same way. *)
Theorem C84_save_partial : forall t d t' d' ds k ver f k', zlib_roundtrip env ->
  grown t -> idoc_at t d -> iid d = tr_root t -> edits t d t' d' ->
  strip d' = DNode [] [] ds -> Forall doc_typed ds -> wfooter_typed f -> standard f ->
  tree_written t' k ver f k' -> (lenN (k_data k') < pow2_64)%N ->
  forall sched seeks seekable, nofail sched = true -> noseekfail seeks = true ->
  exists u foot, any_tree (mkStream (k_data k') 0 sched seeks) seekable = Ok (ver, u, inr foot) /\
    grown u /\ doc_at u (tr_root u) (strip d').
Proof.
  intros t d t' d' ds k ver f k' HZ G D E H ES TY TF SF HW LK sched seeks seekable HN HK.
  destruct (C84_session_partial t d t' d' G D H) as (G' & D' & E1 & E2).
  assert (DD : doc_at t' (tr_root t') (DNode [] [] ds)).
  { inversion D' as [i0 n0 a0 k0 Hi HNm HAt HCh HKs]. destruct (C84_documents t' (iid d') G') as (d2 & DX & I2 & D2 & U); [subst d'; exact Hi|].
    rewrite <- (U d' D' eq_refl) in D2. rewrite <- ES, E2, <- E, <- E1. exact D2. }
  destruct (round_trip_doc _ _ _ _ _ _ HZ G' TY DD TF SF HW LK sched seeks seekable HN HK) as (u & A & GU & DU & _).
  exists u. eexists. split; [exact A|]. split; [exact GU|]. rewrite ES. exact DU.
Qed.
End WithEnv.

(** ** Concrete cases *)
Module ForestCases.
Fixpoint all {A} (l : list (option A)) : option (list A) :=
  match l with
  | [] => Some []
  | Some a :: l => option_map (cons a) (all l)
  | None :: _ => None
  end.
Fixpoint idoc_of (fuel : nat) (t : tree) (i : nat) : option idoc :=
  match fuel, name t i, attributes t i with
  | S fuel, Some n, Some a => option_map (INode i n a) (all (map (idoc_of fuel t) (children t i)))
  | _, _, _ => None
  end.
Lemma all_some : forall A (l : list (option A)) r, all l = Some r -> l = map Some r.
Proof.
  induction l as [|[a|] l IH]; intros r H; cbn in H; try discriminate; [injection H as <-; reflexivity|].
  destruct (all l) as [k|]; [|discriminate]. injection H as <-. cbn. rewrite (IH k eq_refl). reflexivity.
Qed.
Lemma idoc_of_at : forall fuel t i d, idoc_of fuel t i = Some d -> idoc_at t d /\ iid d = i.
Proof.
  induction fuel as [|fuel IH]; intros t i d H; [discriminate|]. cbn [idoc_of] in H.
  destruct (name t i) as [n|] eqn:EN; [|discriminate]. destruct (attributes t i) as [a|] eqn:EA; [|discriminate].
  destruct (all (map (idoc_of fuel t) (children t i))) as [ks|] eqn:EK; [|discriminate]. injection H as <-. split; [|reflexivity].
  apply all_some in EK. assert (K : map iid ks = children t i /\ Forall (idoc_at t) ks).
  { revert ks EK. generalize (children t i). induction l as [|c l IHl]; intros [|k ks] E; try discriminate; [split; [reflexivity|constructor]|].
    injection E as E1 E2. destruct (IH _ _ _ E1) as [A1 A2]. destruct (IHl _ E2) as [B1 B2]. split; [cbn; congruence|constructor; assumption]. }
  destruct K as [K1 K2]. constructor; auto.
  unfold node_of. unfold attributes in EA. destruct (nth_error (tr_arena t) i) eqn:X; [|discriminate]. apply nth_error_Some. congruence.
Qed.

Import TreeIoCases.
Open Scope byte_scope.
(** A session on the sample: a new last child of the first node, which gets an attribute; an
    attribute of the first node is replaced; its second child is moved to the front of the last
    node; its first child is taken out. *)
Definition session : list top :=
  [OpAppendNew 1 ["N"]; OpAppendAttribute 6 (VI32 5); OpAssignAttribute 1 1 (VI16 7); OpPrepend 3 5; OpDetach 2].
Definition step (o : top) (t : tree) : tree := match run_top o t with Some t' => t' | None => t end.
Definition t1 := step (OpAppendNew 1 ["N"]) mtree.
Definition t2 := step (OpAppendAttribute 6 (VI32 5)) t1.
Definition t3 := step (OpAssignAttribute 1 1 (VI16 7)) t2.
Definition t4 := step (OpPrepend 3 5) t3.
Definition t5 := step (OpDetach 2) t4.
Definition d0 : idoc := Eval vm_compute in match idoc_of 6 mtree 0 with Some d => d | None => INode 0 [] [] [] end.
Definition d5 : idoc :=
  INode 0 [] []
    [INode 1 ["A"] [VBool true; VI16 7; VString ["x"; "y"]] [INode 6 ["N"] [VI32 5] []];
     INode 5 ["A"] [VArrF64 []] [INode 3 ["B"] [] [INode 4 ["C"] [] []]]].
Lemma session_edits : edits mtree d0 t5 d5.
Proof.
  apply (edits_one _ _ (OpAppendNew 1 ["N"]) t1 (INode 6 ["N"] [] [])); [exact I|exact I|vm_compute; reflexivity| |].
  { exists 6. split; [vm_compute; lia|]. split; [vm_compute; lia|reflexivity]. }
  apply (edits_one _ _ (OpAppendAttribute 6 (VI32 5)) t2 (INode 0 [] [] [])); [exact I|exact I|vm_compute; reflexivity|exact I|].
  apply (edits_one _ _ (OpAssignAttribute 1 1 (VI16 7)) t3 (INode 0 [] [] [])); [exact I|exact I|vm_compute; reflexivity|exact I|].
  apply (edits_one _ _ (OpPrepend 3 5) t4 (INode 3 ["B"] [] [INode 4 ["C"] [] []])); [exact I|exact I|vm_compute; reflexivity| |].
  { apply (idoc_of_at 6). vm_compute. reflexivity. }
  apply (edits_one _ _ (OpDetach 2) t5 (INode 2 ["B"] [VArrI32 [1; -1]%Z; VBinary ["z"]] [])); [exact I|exact I|vm_compute; reflexivity| |].
  { apply (idoc_of_at 6). vm_compute. reflexivity. }
  match goal with |- edits _ ?d _ _ => replace d with d5 by (vm_compute; reflexivity) end. apply edits_none.
Qed.
Definition k5 : sink := Eval vm_compute in match written t5 7400 with Some k => k | None => k0 end.
(** The hypotheses of the theorems hold of this session; so does the conclusion, by loading what
    was written. *)
Example session_ex : zlib_roundtrip release /\ grown mtree /\ idoc_at mtree d0 /\ iid d0 = tr_root mtree /\ edits mtree d0 t5 d5 /\
  (exists ds, strip d5 = DNode [] [] ds /\ Forall doc_typed ds) /\ wfooter_typed default_footer /\ standard default_footer /\
  tree_written (env := release) t5 k0 7400 default_footer k5 /\ (lenN (k_data k5) < pow2_64)%N /\
  match any_tree (env := release) (mkStream (k_data k5) 0 [AChunk 1; AIntr; AChunk 7] []) false with
  | Ok (v, u, inr f) => v = 7400%N /\ option_map strip (idoc_of 6 u 0) = Some (strip d5)
  | _ => False
  end.
Proof.
  split; [apply stored_roundtrip|]. split; [exact mtree_grown|]. split; [apply (idoc_of_at 6 mtree 0 d0); vm_compute; reflexivity|].
  split; [vm_compute; reflexivity|]. split; [exact session_edits|]. split.
  { eexists. split; [reflexivity|]. repeat constructor; vm_compute; try reflexivity; try congruence; intuition congruence. }
  split; [repeat constructor|]. split; [exact default_standard|]. split; [apply written_written; vm_compute; reflexivity|]. split; [vm_compute; reflexivity|].
  vm_compute. auto.
Qed.

(** [insert_before] does not do what its name says: node 5 was to come before node 4. *)
Lemma before_case : exists t x y t' d e, grown t /\ sane (OpInsertBefore x y) t /\ run_top (OpInsertBefore x y) t = Some t' /\
  idoc_at t d /\ brings t t' (OpInsertBefore x y) e /\ ~ idoc_at t' (edit (OpInsertBefore x y) e d).
Proof.
  destruct (run_top (OpInsertBefore 5 4) Cases.sample) as [t'|] eqn:E; [|vm_compute in E; discriminate].
  destruct (idoc_of 6 Cases.sample 1) as [d|] eqn:ED; [|vm_compute in ED; discriminate].
  destruct (idoc_of 6 Cases.sample 5) as [e|] eqn:EE; [|vm_compute in EE; discriminate].
  exists Cases.sample, 5, 4, t', d, e. split; [exact Cases.sample_grown|]. split.
  { destruct C35_ex_insert as (_ & _ & _ & X). exact X. }
  split; [exact E|]. split; [apply (idoc_of_at 6 _ 1); exact ED|]. split; [exact (idoc_of_at 6 _ 5 _ EE)|].
  intros H. vm_compute in ED, EE. injection ED as <-. injection EE as <-. pose proof E as E0. vm_compute in E0. injection E0 as ET.
  assert (C : children t' 1 = [5; 4; 3]) by (inversion H as [i nm ats ks _ _ _ HC _]; subst; exact HC).
  rewrite <- ET in C. vm_compute in C. discriminate.
Qed.
End ForestCases.

(** The full claim fails for [insert_before]. *)
Theorem C84_before_refuted : exists t x y t' d e, grown t /\ sane (OpInsertBefore x y) t /\ run_top (OpInsertBefore x y) t = Some t' /\
  idoc_at t d /\ brings t t' (OpInsertBefore x y) e /\ ~ idoc_at t' (edit (OpInsertBefore x y) e d).
Proof. exact ForestCases.before_case. Qed.

Print Assumptions C84_documents.
Print Assumptions C84_brings.
Print Assumptions C84_edit_partial.
Print Assumptions C84_session_partial.
Print Assumptions C84_save_partial.
Print Assumptions C84_before_refuted.
