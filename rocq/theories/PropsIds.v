(** C62: node IDs and handles. *)
Require Import Coq.Lists.List Coq.NArith.NArith Coq.ZArith.ZArith Coq.Bool.Bool Coq.Arith.Arith Coq.micromega.Lia.
Require Import Coq.Init.Byte.
Require Import Verif.Base Verif.BaseFacts Verif.Types Verif.Values Verif.Tree Verif.TreeFacts Verif.TreeSpec Verif.TreeLinks Verif.TreeOps Verif.TreePaths Verif.PropsTree.
Import ListNotations.

(** ** Specification *)

(** The node ID that an operation returns. *)
Definition returned_id (o : top) (t : tree) : option nat :=
  match o with
  | OpCreate s => Some (fst (create_node s t))
  | OpAppendNew p s => option_map fst (append_new p s t)
  | OpPrependNew p s => option_map fst (prepend_new p s t)
  | OpInsertNewAfter y s => option_map fst (insert_new_after y s t)
  | OpInsertNewBefore y s => option_map fst (insert_new_before y s t)
  | _ => None
  end.

(** A history of operations without panics: the tree, and the IDs handed out so far (that of the
    root from the start), each with the name the node was created with. *)
Inductive issued : tree -> list (nat * list byte) -> Prop :=
| issued_default : issued tree_default [(tr_root tree_default, [])]
| issued_old : forall t l o t', issued t l -> run_top o t = Some t' -> returned_id o t = None -> issued t' l
| issued_new : forall t l o t' i s, issued t l -> run_top o t = Some t' -> returned_id o t = Some i -> created_name o = Some s -> issued t' (l ++ [(i, s)]).

(** ** Proofs *)
Lemma issued_built : forall t l, issued t l -> built t.
Proof. intros t l H. induction H; [constructor|econstructor; eassumption|econstructor; eassumption]. Qed.

Lemma run_top_nodes : forall t o t', built t -> run_top o t = Some t' ->
  match returned_id o t with
  | None => forall i, node_of t' i <-> node_of t i
  | Some x => ~ node_of t x /\ (forall i, node_of t' i <-> node_of t i \/ i = x) /\ created_name o <> None
  end.
Proof.
  intros t o t' B H. pose proof (built_wf _ B) as W.
  assert (MV : moved t t' -> forall i, node_of t' i <-> node_of t i) by (intros M; apply (moved_nodes _ _ M)).
  assert (AT : forall j f, (forall s, exists l, f s = set_sattrs l s) -> t' = with_arena t (upd j f (tr_arena t)) -> forall i, node_of t' i <-> node_of t i).
  { intros j f F ->. destruct (attrs_effect t j f W F) as (_ & _ & SN & _). exact SN. }
  destruct o; cbn [run_top returned_id] in *.
  - injection H as <-. destruct (create_node name t) as [x t1] eqn:C. cbn [fst snd] in *.
    destruct (create_effect _ _ _ _ W C) as (_ & EX & LA & _). split; [unfold node_of; lia|]. split; [intros i; unfold node_of; lia|discriminate].
  - apply MV. apply (append_effect t t' (wf_links _ W) x p H).
  - apply MV. apply (prepend_effect t t' (wf_links _ W) x p H).
  - apply MV. apply (beside_effect t t' (wf_links _ W) true x y H).
  - apply MV. apply (beside_effect t t' (wf_links _ W) true x y H).
  - destruct (append_new p name t) as [[x t1]|] eqn:E; [|discriminate]. injection H as <-. destruct (C35_append_new _ _ _ _ _ B E) as ((X & Y & _) & _). split; [exact X|]. split; [exact Y|discriminate].
  - destruct (prepend_new p name t) as [[x t1]|] eqn:E; [|discriminate]. injection H as <-. destruct (C35_prepend_new _ _ _ _ _ B E) as ((X & Y & _) & _). split; [exact X|]. split; [exact Y|discriminate].
  - destruct (insert_new_after y name t) as [[x t1]|] eqn:E; [|discriminate]. injection H as <-. destruct (C35_insert_new_after _ _ _ _ _ B E) as ((X & Y & _) & _). split; [exact X|]. split; [exact Y|discriminate].
  - destruct (insert_new_before y name t) as [[x t1]|] eqn:E; [|discriminate]. injection H as <-. destruct (C35_insert_new_before _ _ _ _ _ B E) as ((X & Y & _) & _). split; [exact X|]. split; [exact Y|discriminate].
  - apply MV. apply (detach_effect t t' (wf_links _ W) x H).
  - unfold append_attribute in H. destruct (Nat.eqb i (tr_root t)); [discriminate|]. destruct (used _ i); [|discriminate]. injection H as <-. eapply AT; [|reflexivity]; eauto.
  - unfold assign_attribute in H. destruct (nth_error (tr_arena t) i); [|discriminate]. injection H as <-. eapply AT; [|reflexivity]; eauto.
  - unfold take_attributes in H. destruct (nth_error (tr_arena t) i); [|discriminate]. injection H as <-. eapply AT; [|reflexivity]; eauto.
  - unfold set_attributes in H. destruct (used _ i); [|discriminate]. injection H as <-. eapply AT; [|reflexivity]; eauto.
Qed.

Lemma to_handle_node : forall t i h, to_handle t i = Some h <-> h = i /\ node_of t i.
Proof.
  intros t i h. unfold to_handle, used, node_of. destruct (Nat.ltb_spec i (length (tr_arena t))); split; intros X.
  - injection X as <-. auto.
  - destruct X as [-> _]. reflexivity.
  - discriminate.
  - lia.
Qed.

(** Every ID is new when it is handed out, and stays the ID of the node it was handed out for:
    a handle can be made from it ever after, and the name is the one the node was created with.
    No handle can be made from anything else. *)
Theorem C62_ids : forall t l, issued t l ->
  NoDup (map fst l) /\
  (forall i s, In (i, s) l -> to_handle t i = Some i /\ name t i = Some s) /\
  (forall i h, to_handle t i = Some h -> h = i /\ exists s, In (i, s) l).
Proof.
  intros t l H.
  assert (K : NoDup (map fst l) /\ (forall i, node_of t i <-> In i (map fst l)) /\ (forall i s, In (i, s) l -> name t i = Some s)).
  { induction H as [|t l o t' H IH R N|t l o t' i s H IH R N C].
    - split; [repeat constructor; intros []|]. split; [intros i; unfold node_of; cbn; lia|]. intros i s [[= <- <-]|[]]. reflexivity.
    - pose proof (issued_built _ _ H) as B. destruct IH as (I1 & I2 & I3). pose proof (run_top_nodes _ _ _ B R) as Q. rewrite N in Q.
      destruct (C37_names _ _ _ B R) as (X & _). split; [exact I1|]. split; [intros i; rewrite Q; apply I2|]. intros i s Hi.
      destruct (X i) as [-> _]; [apply I2; apply (in_map fst) in Hi; exact Hi|apply I3; exact Hi].
    - pose proof (issued_built _ _ H) as B. destruct IH as (I1 & I2 & I3). pose proof (run_top_nodes _ _ _ B R) as Q. rewrite N in Q. destruct Q as (Q1 & Q2 & _).
      destruct (C37_names _ _ _ B R) as (X & Y & _). rewrite map_app. cbn [map fst]. split.
      + apply NoDup_rev in I1. rewrite <- (rev_involutive (map fst l)), <- (rev_involutive [i]), <- rev_app_distr. apply NoDup_rev. cbn. constructor; [|exact I1].
        rewrite <- in_rev, <- I2. exact Q1.
      + split; [intros j; rewrite Q2, in_app_iff, I2; cbn; intuition congruence|]. intros j u Hj. apply in_app_or in Hj. destruct Hj as [Hj|[[= <- <-]|[]]].
        * destruct (X j) as [-> _]; [apply I2; apply (in_map fst) in Hj; exact Hj|apply I3; exact Hj].
        * rewrite Y; [exact C|apply Q2; auto|exact Q1]. }
  destruct K as (K1 & K2 & K3). split; [exact K1|]. split.
  - intros i s Hi. split; [|apply K3; exact Hi]. apply to_handle_node. split; [reflexivity|]. apply K2. apply (in_map fst) in Hi. exact Hi.
  - intros i h Hh. apply to_handle_node in Hh. destruct Hh as [-> Hi]. split; [reflexivity|]. apply K2 in Hi. apply in_map_iff in Hi. destruct Hi as ((j & s) & <- & Hi). exists s. exact Hi.
Qed.

(** Whatever is asked of a handle has an answer: the name, the attributes; and the neighbours and
    children that it names have handles. *)
Theorem C62_handles_work : forall t i h, built t -> to_handle t i = Some h ->
  (exists s, name t h = Some s) /\ (exists l, attributes t h = Some l) /\
  (forall j, parent t h = Some j \/ first_child t h = Some j \/ last_child t h = Some j \/ previous_sibling t h = Some j \/ next_sibling t h = Some j \/ In j (children t h) ->
     to_handle t j = Some j).
Proof.
  intros t i h B H. apply to_handle_node in H. destruct H as [-> N].
  split; [|split].
  - destruct (C37_names t (OpCreate []) _ B eq_refl) as (_ & _ & X). apply X. exact N.
  - unfold attributes, node_of in *. apply nth_error_Some in N. destruct (nth_error (tr_arena t) i) as [x|]; [eexists; reflexivity|contradiction].
  - intros j J. apply to_handle_node. split; [reflexivity|]. destruct (C34_links_consistent _ B) as (L1 & L2 & L3 & L4 & L5 & L6 & L7).
    destruct (L3 i) as [LF LL].
    assert (CH : In j (children t i) -> node_of t j) by (intros X; apply L1 in X; apply (L7 j i); auto).
    destruct J as [J|[J|[J|[J|[J|J]]]]].
    + apply (L7 i j). auto.
    + apply CH. rewrite LF in J. destruct (children t i); [discriminate|]. injection J as <-. left. reflexivity.
    + apply CH. rewrite LL in J. apply last_opt_some in J. destruct J as [k ->]. apply in_or_app. right. left. reflexivity.
    + apply (L7 j i). right. apply L5. exact J.
    + apply (L7 i j). auto.
    + apply CH. exact J.
Qed.

(** ** Concrete cases *)
Module IdCases.
Import PropsTree.Cases.
Open Scope byte_scope.
(** The IDs that a history hands out, with the names. *)
Fixpoint ids (l : list top) (t : tree) : list (nat * list byte) :=
  match l with
  | [] => []
  | o :: l' =>
      match run_top o t with
      | Some t' => match returned_id o t, created_name o with Some i, Some s => [(i, s)] | _, _ => [] end ++ ids l' t'
      | None => []
      end
  end.
Lemma ids_issued : forall l t t' k, issued t k -> run_tops l t = Some t' -> issued t' (k ++ ids l t).
Proof.
  induction l as [|o l IH]; intros t t' k H R; cbn in R |- *.
  - injection R as <-. rewrite app_nil_r. exact H.
  - destruct (run_top o t) as [t1|] eqn:E; [|discriminate]. rewrite app_assoc. apply IH; [|exact R].
    pose proof (run_top_nodes _ _ _ (issued_built _ _ H) E) as Q. destruct (returned_id o t) as [i|] eqn:ER.
    + destruct Q as (_ & _ & Q). destruct (created_name o) as [s|] eqn:EC; [|contradiction]. eapply issued_new; eassumption.
    + rewrite app_nil_r. eapply issued_old; eassumption.
Qed.
Example C62_ids_ex : issued sample [(0, []); (1, ["a"]); (2, ["b"]); (3, ["c"]); (4, ["a"]); (5, ["d"])] /\ to_handle sample 3 = Some 3 /\ to_handle sample 6 = None.
Proof. split; [|split; reflexivity]. exact (ids_issued story _ _ _ issued_default sample_run). Qed.
Example C62_handles_ex : to_handle sample 3 = Some 3 /\ name sample 3 = Some ["c"] /\ attributes sample 3 = Some [VI32 7%Z] /\ parent sample 3 = Some 1 /\ previous_sibling sample 3 = Some 4.
Proof. repeat split; vm_compute; reflexivity. Qed.
(** IDs carry no mark of their tree: one that another tree handed out is taken for a node of
    this one, if this one has as many nodes. *)
Example C62_foreign_ex : exists t l u k i, issued t l /\ issued u k /\ In (i, ["b"]) k /\ to_handle t i = Some i /\ name t i = Some ["a"].
Proof.
  exists (snd (create_node ["a"] tree_default)), [(0, []); (1, ["a"])], (snd (create_node ["b"] tree_default)), [(0, []); (1, ["b"])], 1.
  split; [exact (ids_issued [OpCreate ["a"]] _ _ _ issued_default eq_refl)|]. split; [exact (ids_issued [OpCreate ["b"]] _ _ _ issued_default eq_refl)|].
  split; [right; left; reflexivity|]. split; reflexivity.
Qed.
End IdCases.
