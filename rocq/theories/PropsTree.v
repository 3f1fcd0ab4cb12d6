(** C34, C35, C36, C37, C40: the tree API over all histories of operations.

    A history is a sequence of public tree operations starting from the empty tree, none of
    which panicked ([built]; [grown] when in addition no node was put beside one of its own
    descendants).  Everything below is said with the observers of node handles: [parent],
    [children], [first_child], [next_sibling], [name], [attributes]... *)
Require Import Coq.Lists.List Coq.Arith.PeanoNat Coq.Bool.Bool Lia.
Require Import Coq.Init.Byte Coq.ZArith.ZArith.
Require Import Verif.Base Verif.BaseFacts Verif.Types Verif.Values Verif.Tree Verif.TreeFacts Verif.TreeSpec Verif.TreeLinks Verif.TreeOps Verif.TreePaths.
Import ListNotations.

(** ** C34 *)

Theorem C34_links_consistent : forall t, built t ->
  (forall p c, In c (children t p) <-> parent t c = Some p) /\
  (forall p, NoDup (children t p)) /\
  (forall p, first_child t p = hd_error (children t p) /\ last_child t p = last_opt (children t p)) /\
  (forall p l1 c l2, children t p = l1 ++ c :: l2 ->
     previous_sibling t c = last_opt l1 /\ next_sibling t c = hd_error l2) /\
  (forall x y, next_sibling t x = Some y <-> previous_sibling t y = Some x) /\
  (forall x y, next_sibling t x = Some y -> parent t x = parent t y) /\
  (forall x y, parent t x = Some y \/ next_sibling t x = Some y -> node_of t x /\ node_of t y).
Proof.
  intros t B. pose proof (wf_links _ (built_wf _ B)) as L.
  assert (UN : forall x y, next_sibling t x = Some y -> node_of t x) by (intros x y H; exact (lk_range _ _ _ _ H)).
  assert (UP : forall x y, previous_sibling t x = Some y -> node_of t x) by (intros x y H; exact (lk_range _ _ _ _ H)).
  split; [apply (child_parent t L)|]. split; [apply (children_nodup t L)|]. split; [apply (ends t L)|].
  split; [apply (neighbours t L)|]. split; [|split].
  - intros x y; split; intros H.
    + apply (next_prev t L _ _ (UN _ _ H) H).
    + apply (prev_next t L _ _ (UP _ _ H) H).
  - intros x y H. symmetry. apply (next_prev t L _ _ (UN _ _ H) H).
  - intros x y [H|H]; [apply (parent_used t L _ _ H)|]. split; [exact (UN _ _ H)|]. apply (next_prev t L _ _ (UN _ _ H) H).
Qed.

(** No node is its own ancestor, provided no node was inserted beside its own descendant. *)
Theorem C34_no_cycle_partial : forall t, grown t ->
  forall i p, parent t i = Some p -> ~ above t i p.
Proof.
  intros t G i p H A. pose proof (grown_acyclic _ G) as AC. pose proof (wf_links _ (built_wf _ (grown_built _ G))) as L.
  destruct (AC p) as [l U]; [apply (parent_used t L _ _ H)|].
  apply (above_up _ _ _ _ U) in A. assert (V : up t i (i :: l)) by (econstructor; eauto).
  pose proof (up_nodup _ _ _ V) as ND. inversion ND. contradiction.
Qed.

(** ** Histories as lists, for the examples. *)
Fixpoint run_tops (l : list top) (t : tree) : option tree :=
  match l with
  | [] => Some t
  | o :: l' => match run_top o t with Some t' => run_tops l' t' | None => None end
  end.
Lemma run_tops_built : forall l t t', built t -> run_tops l t = Some t' -> built t'.
Proof.
  induction l as [|o l IH]; intros t t' B H; cbn in H.
  - injection H as <-. exact B.
  - destruct (run_top o t) as [t1|] eqn:E; [|discriminate]. apply (IH t1 t'); [|exact H]. econstructor; eauto.
Qed.
(** Histories without [insert_after] and [insert_before] are always fine. *)
Definition no_insert (o : top) : bool := match o with OpInsertAfter _ _ | OpInsertBefore _ _ => false | _ => true end.
Lemma run_tops_grown : forall l t t', grown t -> forallb no_insert l = true -> run_tops l t = Some t' -> grown t'.
Proof.
  induction l as [|o l IH]; intros t t' B N H; cbn in H, N.
  - injection H as <-. exact B.
  - apply andb_prop in N as [N1 N2]. destruct (run_top o t) as [t1|] eqn:E; [|discriminate]. apply (IH t1 t'); [|exact N2|exact H].
    apply (grown_op t o t1); [exact B| |exact E]. destruct o; cbn in *; auto; discriminate.
Qed.

Module Cases.
  Open Scope byte_scope.
  (** Root 0 with children 1 (a) and 2 (b), 3 (c) under 1, 4 (a) under 1 before it, and an
      orphan 5. *)
  Definition story : list top :=
    [ OpAppendNew 0 ["a"]; OpAppendNew 0 ["b"]; OpAppendNew 1 ["c"]; OpInsertNewBefore 3 ["a"];
      OpCreate ["d"]; OpAppendAttribute 3 (VI32 7%Z) ].
  Definition sample : tree := match run_tops story tree_default with Some t => t | None => tree_default end.
  Lemma sample_run : run_tops story tree_default = Some sample. Proof. vm_compute. reflexivity. Qed.
  Lemma sample_grown : grown sample.
  Proof. apply (run_tops_grown story tree_default); [constructor|reflexivity|exact sample_run]. Qed.
  Lemma sample_built : built sample. Proof. exact (grown_built _ sample_grown). Qed.
  (** A chain 0 - 1 - 2 - 3, then 1 is inserted after its grandchild 3. *)
  Definition loop_story : list top :=
    [ OpAppendNew 0 ["a"]; OpAppendNew 1 ["b"]; OpAppendNew 2 ["c"]; OpInsertAfter 1 3 ].
  Definition looped : tree := match run_tops loop_story tree_default with Some t => t | None => tree_default end.
  Lemma looped_run : run_tops loop_story tree_default = Some looped. Proof. vm_compute. reflexivity. Qed.
  Lemma looped_built : built looped.
  Proof. apply (run_tops_built loop_story tree_default); [constructor|exact looped_run]. Qed.
End Cases.

Example C34_ex :
  children Cases.sample 0 = [1; 2] /\ children Cases.sample 1 = [4; 3] /\ parent Cases.sample 3 = Some 1 /\
  previous_sibling Cases.sample 3 = Some 4 /\ parent Cases.sample 5 = None /\ grown Cases.sample.
Proof. repeat (split; [vm_compute; reflexivity|]). exact Cases.sample_grown. Qed.

(** The full claim fails: a node can be inserted after its grandchild, and then is its own
    grandparent. *)
Theorem C34_no_cycle_refuted : exists t i p, built t /\ parent t i = Some p /\ above t i p.
Proof.
  exists Cases.looped, 1, 2. split; [exact Cases.looped_built|]. split; [vm_compute; reflexivity|].
  apply (above_step _ _ 2 1); [vm_compute; reflexivity|constructor].
Qed.

(** ** C35 *)

(** A moved subtree is kept whole. *)
Lemma rose_transfer : forall t t' r, same_nodes t t' ->
  rose_at t r -> (forall q, In q (ids r) -> children t' q = children t q) -> rose_at t' r.
Proof.
  intros t t' r SN. induction r as [i ks IH] using rose_ind'. intros R H. inversion R as [? ? Hi E F]; subst. constructor.
  - apply SN. exact Hi.
  - rewrite H by (cbn; auto). exact E.
  - rewrite Forall_forall in *. intros k Hk. apply IH; auto. intros q Hq. apply H. cbn. right. apply in_flat_map. eauto.
Qed.
Lemma own_subtree : forall t x r q, grown t -> rose_at t r -> rose_id r = x -> In q (ids r) -> above t x q /\ ~ In x (children t q).
Proof.
  intros t x r q G R E Hq. pose proof (wf_links _ (built_wf _ (grown_built _ G))) as L. pose proof (grown_acyclic _ G) as AC.
  destruct (ids_above t L r R q Hq) as [Uq A]. rewrite E in A. split; [exact A|].
  intros HI. apply (child_parent t L) in HI. exact (C34_no_cycle_partial t G x q HI A).
Qed.

Section Moves.
Context (t t' : tree) (B : built t).
Let L := wf_links _ (built_wf _ B).

Theorem C35_append : forall x p, append x p t = Some t' ->
  same_nodes t t' /\ same_contents t t' /\
  (forall q, children t' q = without x (children t q) ++ (if Nat.eqb q p then [x] else [])) /\
  (forall i, parent t' i = if Nat.eqb i x then Some p else parent t i) /\
  (forall z, node_of t z -> z <> x -> parent t z <> Some p -> siblings t' z = without x (siblings t z)) /\
  (grown t -> forall r, rose_at t r -> rose_id r = x -> rose_at t' r).
Proof.
  intros x p H. destruct (append_effect t t' L x p H) as (M & _ & _ & P & C & S).
  split; [apply moved_nodes; exact M|]. split; [apply moved_contents; exact M|].
  split; [intros q; rewrite C; destruct (Nat.eqb q p); [|rewrite app_nil_r]; reflexivity|]. split; [exact P|]. split; [exact S|].
  intros G r R E. apply (rose_transfer t); [apply moved_nodes; exact M|exact R|]. intros q Hq.
  destruct (own_subtree t x r q G R E Hq) as [A NI]. rewrite C. unfold without. rewrite rm_notin by exact NI.
  destruct (Nat.eqb_spec q p); [|reflexivity]. subst q. destruct (append_not_above _ _ _ _ H A).
Qed.

Theorem C35_prepend : forall x p, prepend x p t = Some t' ->
  same_nodes t t' /\ same_contents t t' /\
  (forall q, children t' q = (if Nat.eqb q p then [x] else []) ++ without x (children t q)) /\
  (forall i, parent t' i = if Nat.eqb i x then Some p else parent t i) /\
  (forall z, node_of t z -> z <> x -> parent t z <> Some p -> siblings t' z = without x (siblings t z)) /\
  (grown t -> forall r, rose_at t r -> rose_id r = x -> rose_at t' r).
Proof.
  intros x p H. destruct (prepend_effect t t' L x p H) as (M & _ & _ & P & C & S).
  split; [apply moved_nodes; exact M|]. split; [apply moved_contents; exact M|].
  split; [intros q; rewrite C; destruct (Nat.eqb q p); reflexivity|]. split; [exact P|]. split; [exact S|].
  intros G r R E. apply (rose_transfer t); [apply moved_nodes; exact M|exact R|]. intros q Hq.
  destruct (own_subtree t x r q G R E Hq) as [A NI]. rewrite C. unfold without. rewrite rm_notin by exact NI.
  destruct (Nat.eqb_spec q p); [|reflexivity]. subst q. destruct (prepend_not_above _ _ _ _ H A).
Qed.

Theorem C35_insert_after : forall x y, insert_after x y t = Some t' ->
  same_nodes t t' /\ same_contents t t' /\
  (forall q, children t' q = put_after y x (without x (children t q))) /\
  (forall i, parent t' i = if Nat.eqb i x then parent t y else parent t i) /\
  (forall z, node_of t z -> siblings t' z = put_after y x (without x (siblings t (if Nat.eqb z x then y else z)))) /\
  (grown t -> ~ above t x y -> forall r, rose_at t r -> rose_id r = x -> rose_at t' r).
Proof.
  intros x y H. destruct (beside_effect t t' L true x y H) as (M & _ & _ & P & C & S).
  split; [apply moved_nodes; exact M|]. split; [apply moved_contents; exact M|].
  split; [exact C|]. split; [exact P|]. split; [exact S|].
  intros G NA r R E. apply (rose_transfer t); [apply moved_nodes; exact M|exact R|]. intros q Hq.
  destruct (own_subtree t x r q G R E Hq) as [A NI]. rewrite C. unfold without. rewrite rm_notin by exact NI.
  apply put_after_notin. intros HI. apply (child_parent t L) in HI. apply NA. econstructor; eauto.
Qed.

(** What a creating operation does besides placing the node. *)
Definition creates (s : list byte) (x : nat) : Prop :=
  ~ node_of t x /\ (forall i, node_of t' i <-> node_of t i \/ i = x) /\
  tr_root t' = tr_root t /\
  (forall i, node_of t i -> name t' i = name t i /\ attributes t' i = attributes t i) /\
  name t' x = Some s /\ attributes t' x = Some [].
End Moves.

Lemma creates_moved : forall t s x t1 t', wf t -> create_node s t = (x, t1) -> moved t1 t' -> creates t t' s x.
Proof.
  intros t s x t1 t' W C M. destruct (create_effect _ _ _ _ W C) as (W1 & EX & LA & R & P & CH & SB & OLD & _ & NM & AT).
  pose proof (mv_keeps _ _ M) as [KL _].
  split; [unfold node_of; lia|]. split; [intros i; unfold node_of; lia|]. split; [rewrite (mv_root _ _ M); exact R|]. split.
  - intros i Hi. rewrite (moved_name _ _ _ M), (moved_attrs _ _ _ M). apply OLD. exact Hi.
  - rewrite (moved_name _ _ _ M), (moved_attrs _ _ _ M). auto.
Qed.
Lemma new_notin : forall t q x, linked t -> ~ node_of t x -> without x (children t q) = children t q.
Proof. intros t q x L H. apply rm_notin. intros HI. apply H. apply (children_used t L _ _ HI). Qed.

Theorem C35_append_new : forall t p s x t', built t -> append_new p s t = Some (x, t') ->
  creates t t' s x /\ parent t' x = Some p /\
  (forall i, i <> x -> parent t' i = parent t i) /\
  (forall q, children t' q = children t q ++ (if Nat.eqb q p then [x] else [])).
Proof.
  intros t p s x t' B H. pose proof (built_wf _ B) as W. unfold append_new in H. destruct (create_node s t) as [n t1] eqn:C.
  apply new_inv in H as (a & E & H). injection H as -> ->.
  assert (HA : append n p t1 = Some (with_arena t1 a)) by (unfold append; rewrite E; reflexivity).
  destruct (create_step _ _ _ _ W C) as [W1 _]. destruct (append_effect _ _ (wf_links _ W1) _ _ HA) as (M & _ & _ & P & CH & _).
  destruct (create_effect _ _ _ _ W C) as (_ & EX & _ & _ & P1 & C1 & _).
  split; [apply (creates_moved t s n t1); assumption|]. split; [rewrite P, Nat.eqb_refl; reflexivity|].
  split; [intros i N; rewrite P; destruct (Nat.eqb_spec i n); [contradiction|apply P1]|].
  intros q. rewrite CH, C1, (new_notin t q n (wf_links _ W)) by (unfold node_of; lia).
  destruct (Nat.eqb q p); [|rewrite app_nil_r]; reflexivity.
Qed.

Theorem C35_prepend_new : forall t p s x t', built t -> prepend_new p s t = Some (x, t') ->
  creates t t' s x /\ parent t' x = Some p /\
  (forall i, i <> x -> parent t' i = parent t i) /\
  (forall q, children t' q = (if Nat.eqb q p then [x] else []) ++ children t q).
Proof.
  intros t p s x t' B H. pose proof (built_wf _ B) as W. unfold prepend_new in H. destruct (create_node s t) as [n t1] eqn:C.
  apply new_inv in H as (a & E & H). injection H as -> ->.
  assert (HA : prepend n p t1 = Some (with_arena t1 a)) by (unfold prepend; rewrite E; reflexivity).
  destruct (create_step _ _ _ _ W C) as [W1 _]. destruct (prepend_effect _ _ (wf_links _ W1) _ _ HA) as (M & _ & _ & P & CH & _).
  destruct (create_effect _ _ _ _ W C) as (_ & EX & _ & _ & P1 & C1 & _).
  split; [apply (creates_moved t s n t1); assumption|]. split; [rewrite P, Nat.eqb_refl; reflexivity|].
  split; [intros i N; rewrite P; destruct (Nat.eqb_spec i n); [contradiction|apply P1]|].
  intros q. rewrite CH, C1, (new_notin t q n (wf_links _ W)) by (unfold node_of; lia).
  destruct (Nat.eqb q p); reflexivity.
Qed.

Theorem C35_insert_new_after : forall t y s x t', built t -> insert_new_after y s t = Some (x, t') ->
  creates t t' s x /\ parent t' x = parent t y /\ y <> tr_root t /\
  (forall i, i <> x -> parent t' i = parent t i) /\
  (forall q, children t' q = put_after y x (children t q)) /\
  siblings t' x = put_after y x (siblings t y).
Proof.
  intros t y s x t' B H. pose proof (built_wf _ B) as W. unfold insert_new_after in H.
  destruct (Nat.eqb_spec y (tr_root t)) as [|NR]; [discriminate|]. destruct (create_node s t) as [n t1] eqn:C.
  apply new_inv in H as (a & E & H). injection H as -> ->.
  assert (HA : lift_arena t1 (if true then a_insert_after y n (tr_arena t1) else a_insert_before y n (tr_arena t1)) = Some (with_arena t1 a)) by (cbn; rewrite E; reflexivity).
  destruct (create_step _ _ _ _ W C) as [W1 _]. destruct (beside_effect _ _ (wf_links _ W1) true _ _ HA) as (M & _ & (Uy & Un & NE & _) & P & CH & SB).
  destruct (create_effect _ _ _ _ W C) as (_ & EX & LA & _ & P1 & C1 & S1 & _).
  assert (Hy : node_of t y) by (unfold node_of in *; lia).
  split; [apply (creates_moved t s n t1); assumption|]. split; [rewrite P, Nat.eqb_refl; apply P1|]. split; [exact NR|].
  split; [intros i N; rewrite P; destruct (Nat.eqb_spec i n); [contradiction|apply P1]|]. split.
  - intros q. rewrite CH, C1, (new_notin t q n (wf_links _ W)) by (unfold node_of; lia). reflexivity.
  - rewrite SB by exact Un. rewrite Nat.eqb_refl, S1 by exact Hy. f_equal. apply rm_notin. intros HI.
    destruct (siblings_same t (wf_links _ W) y n Hy HI) as [HC _]. unfold node_of in HC. lia.
Qed.

Theorem C35_insert_new_before : forall t y s x t', built t -> insert_new_before y s t = Some (x, t') ->
  creates t t' s x /\ parent t' x = parent t y /\ y <> tr_root t /\
  (forall i, i <> x -> parent t' i = parent t i) /\
  (forall q, children t' q = put_before y x (children t q)) /\
  siblings t' x = put_before y x (siblings t y).
Proof.
  intros t y s x t' B H. pose proof (built_wf _ B) as W. unfold insert_new_before in H.
  destruct (Nat.eqb_spec y (tr_root t)) as [|NR]; [discriminate|]. destruct (create_node s t) as [n t1] eqn:C.
  apply new_inv in H as (a & E & H). injection H as -> ->.
  assert (HA : lift_arena t1 (if false then a_insert_after y n (tr_arena t1) else a_insert_before y n (tr_arena t1)) = Some (with_arena t1 a)) by (cbn; rewrite E; reflexivity).
  destruct (create_step _ _ _ _ W C) as [W1 _]. destruct (beside_effect _ _ (wf_links _ W1) false _ _ HA) as (M & _ & (Uy & Un & NE & _) & P & CH & SB).
  destruct (create_effect _ _ _ _ W C) as (_ & EX & LA & _ & P1 & C1 & S1 & _).
  assert (Hy : node_of t y) by (unfold node_of in *; lia).
  split; [apply (creates_moved t s n t1); assumption|]. split; [rewrite P, Nat.eqb_refl; apply P1|]. split; [exact NR|].
  split; [intros i N; rewrite P; destruct (Nat.eqb_spec i n); [contradiction|apply P1]|]. split.
  - intros q. rewrite CH, C1, (new_notin t q n (wf_links _ W)) by (unfold node_of; lia). reflexivity.
  - rewrite SB by exact Un. rewrite Nat.eqb_refl, S1 by exact Hy. f_equal. apply rm_notin. intros HI.
    destruct (siblings_same t (wf_links _ W) y n Hy HI) as [HC _]. unfold node_of in HC. lia.
Qed.

(** When the moves panic. *)
Lemma insert_none : forall x par prev next a, insert_with_neighbors x par prev next a = None ->
  prev = Some x \/ next = Some x \/ par = Some x.
Proof.
  intros x par prev next a H. unfold insert_with_neighbors in H.
  destruct (onat_eqb prev (Some x)) eqn:E1; [apply onat_eqb_eq in E1; auto|].
  destruct (onat_eqb next (Some x)) eqn:E2; [apply onat_eqb_eq in E2; auto|]. cbn in H.
  destruct (onat_eqb par (Some x)) eqn:E3; [apply onat_eqb_eq in E3; auto|]. discriminate.
Qed.

Theorem C35_append_panics : forall t x p, grown t ->
  (append x p t = None <-> ~ node_of t x \/ ~ node_of t p \/ above t x p).
Proof.
  intros t x p G. pose proof (wf_links _ (built_wf _ (grown_built _ G))) as L. pose proof (grown_acyclic _ G) as AC. split.
  - intros H. destruct (Nat.lt_ge_cases x (length (tr_arena t))) as [Ux|Ux]; [|left; unfold node_of; lia].
    destruct (Nat.lt_ge_cases p (length (tr_arena t))) as [Up|Up]; [|right; left; unfold node_of; lia].
    right. right. unfold append, a_append in H. rewrite (proj2 (used_lt _ _) Ux), (proj2 (used_lt _ _) Up) in H. cbn [negb andb] in H.
    destruct (Nat.eqb_spec x p) as [->|NE]; [constructor|].
    destruct (AC p Up) as [l U]. rewrite (anc_mem_up _ x _ _ U) in H by (pose proof (up_length _ _ _ L Up U); lia).
    destruct (memb x l) eqn:EM; [apply memb_in in EM; apply (above_up _ _ _ _ U); exact EM|].
    destruct L as (sib & ch & L). destruct (detach_links _ _ _ x L Ux) as (a1 & D & LA & _ & _ & L1). rewrite D in H.
    destruct (insert_with_neighbors _ _ _ _ a1) eqn:EI; [discriminate|]. apply insert_none in EI as [EI|[EI|EI]]; [|discriminate|injection EI as ->; contradiction].
    assert (Hp1 : p < length a1) by lia. destruct (l_ends _ _ _ L1 p Hp1) as [_ EL]. rewrite EL in EI. apply last_opt_in in EI.
    cbv beta in EI. apply in_rm in EI. tauto.
  - intros H. destruct (append x p t) as [t'|] eqn:E; [|reflexivity]. exfalso.
    destruct (append_effect t t' L x p E) as (_ & _ & (Up & Ux & _) & _). pose proof (append_not_above _ _ _ _ E). tauto.
Qed.

Theorem C35_insert_after_panics : forall t x y, built t ->
  (insert_after x y t = None <-> ~ node_of t x \/ ~ node_of t y \/ x = y \/ parent t y = Some x).
Proof.
  intros t x y B. pose proof (wf_links _ (built_wf _ B)) as L. split.
  - intros H. destruct (Nat.lt_ge_cases x (length (tr_arena t))) as [Ux|Ux]; [|left; unfold node_of; lia].
    destruct (Nat.lt_ge_cases y (length (tr_arena t))) as [Uy|Uy]; [|right; left; unfold node_of; lia].
    right. right. unfold insert_after, a_insert_after in H. rewrite (proj2 (used_lt _ _) Ux), (proj2 (used_lt _ _) Uy) in H. cbn [negb andb] in H.
    destruct (Nat.eqb_spec x y) as [->|NE]; [auto|]. right.
    destruct L as (sib & ch & L). destruct (detach_links _ _ _ x L Ux) as (a1 & D & LA & _ & P & L1). rewrite D in H.
    destruct (insert_with_neighbors _ _ _ _ a1) eqn:EI; [discriminate|]. apply insert_none in EI as [EI|[EI|EI]].
    + injection EI as ->. contradiction.
    + exfalso. assert (Hy1 : y < length a1) by lia. destruct (in_split _ _ (l_self _ _ _ L1 y Hy1)) as (l1 & l2 & E).
      destruct (l_nb _ _ _ L1 y _ _ Hy1 E) as [_ N]. rewrite N in EI. apply hd_error_in in EI.
      cbv beta in E. destruct (Nat.eqb_spec y x); [congruence|].
      assert (HI : In x (rm x (sib y))) by (rewrite E, in_app_iff; cbn; auto). apply in_rm in HI. tauto.
    + rewrite P in EI. destruct (Nat.eqb_spec y x); [discriminate|]. exact EI.
  - intros H. destruct (insert_after x y t) as [t'|] eqn:E; [|reflexivity]. exfalso.
    destruct (beside_effect t t' L true x y E) as (_ & _ & (Uy & Ux & NE & NP) & _). tauto.
Qed.

Example C35_ex : exists t', append 2 4 Cases.sample = Some t' /\ built Cases.sample /\
  children t' 0 = [1] /\ children t' 4 = [2] /\ append 1 3 Cases.sample = None.
Proof.
  destruct (append 2 4 Cases.sample) as [t'|] eqn:E; [|vm_compute in E; discriminate]. exists t'.
  split; [reflexivity|]. split; [exact Cases.sample_built|]. vm_compute in E. injection E as <-. vm_compute. auto.
Qed.
Example C35_ex_insert : exists t', insert_after 5 4 Cases.sample = Some t' /\
  children t' 1 = [4; 5; 3] /\ ~ above Cases.sample 5 4.
Proof.
  destruct (insert_after 5 4 Cases.sample) as [t'|] eqn:E; [|vm_compute in E; discriminate]. exists t'.
  split; [reflexivity|]. vm_compute in E. injection E as <-. split; [vm_compute; reflexivity|].
  intros A. inversion A as [|? p P A1]; subst. vm_compute in P. injection P as <-.
  inversion A1 as [|? p P A2]; subst. vm_compute in P. injection P as <-.
  inversion A2 as [|? p P A3]; subst. vm_compute in P. discriminate.
Qed.
Example C35_ex_new : exists x t', insert_new_before 3 [] Cases.sample = Some (x, t') /\ children t' 1 = [4; x; 3].
Proof.
  destruct (insert_new_before 3 [] Cases.sample) as [[x t']|] eqn:E; [|vm_compute in E; discriminate]. exists x, t'.
  split; [reflexivity|]. vm_compute in E. injection E as <- <-. vm_compute. reflexivity.
Qed.

(** [insert_before] does not insert before: here node 2 ends up after node 1's child 4
    although it should stand before it. *)
Theorem C35_insert_before_refuted : exists t x y t', built t /\ ~ above t x y /\
  insert_before x y t = Some t' /\ next_sibling t' x <> Some y /\ previous_sibling t' x = Some y.
Proof.
  destruct (insert_before 5 4 Cases.sample) as [t'|] eqn:E; [|vm_compute in E; discriminate].
  exists Cases.sample, 5, 4, t'. split; [exact Cases.sample_built|]. split; [|split; [exact E|]].
  - destruct C35_ex_insert as (_ & _ & _ & H). exact H.
  - vm_compute in E. injection E as <-. split; [vm_compute; discriminate|vm_compute; reflexivity].
Qed.

(** ** C36 *)

Theorem C36_detach : forall t x t', built t -> detach x t = Some t' ->
  same_nodes t t' /\ same_contents t t' /\
  (forall q, children t' q = without x (children t q)) /\
  (forall i, parent t' i = if Nat.eqb i x then None else parent t i) /\
  siblings t' x = [x] /\
  (forall z, node_of t z -> z <> x -> siblings t' z = without x (siblings t z)) /\
  (grown t -> forall r, rose_at t r -> rose_id r = x -> rose_at t' r).
Proof.
  intros t x t' B H. pose proof (wf_links _ (built_wf _ B)) as L.
  destruct (detach_effect t t' L x H) as (M & _ & Ux & P & C & S).
  split; [apply moved_nodes; exact M|]. split; [apply moved_contents; exact M|]. split; [exact C|]. split; [exact P|].
  split; [rewrite S, Nat.eqb_refl by exact Ux; reflexivity|].
  split; [intros z Hz NE; rewrite S by exact Hz; destruct (Nat.eqb_spec z x); [contradiction|reflexivity]|].
  intros G r R E. apply (rose_transfer t); [apply moved_nodes; exact M|exact R|]. intros q Hq.
  destruct (own_subtree t x r q G R E Hq) as [A NI]. rewrite C. apply rm_notin. exact NI.
Qed.

Theorem C36_panics : forall t x, detach x t = None <-> ~ node_of t x.
Proof.
  intros t x. unfold detach, a_detach, node_of. destruct (nth_error (tr_arena t) x) eqn:E; cbn; split; intros H; try discriminate; try reflexivity.
  - exfalso. apply H. apply nth_error_Some. congruence.
  - intros HC. apply nth_error_Some in HC. contradiction.
Qed.

(** Histories that neither move the root nor insert beside it. *)
Definition leaves_root (o : top) (t : tree) : Prop :=
  match o with
  | OpAppend x _ | OpPrepend x _ => x <> tr_root t
  | OpInsertAfter x y | OpInsertBefore x y => x <> tr_root t /\ y <> tr_root t
  | _ => True
  end.
Inductive rooted : tree -> Prop :=
| rooted_default : rooted tree_default
| rooted_op : forall t o t', rooted t -> leaves_root o t -> run_top o t = Some t' -> rooted t'.

Lemma rooted_built : forall t, rooted t -> built t.
Proof. induction 1; [constructor|econstructor; eauto]. Qed.

Definition alone (t : tree) := parent t (tr_root t) = None /\ siblings t (tr_root t) = [tr_root t].
Lemma put_after_alone : forall y x z, z <> y -> put_after y x [z] = [z].
Proof. intros y x z H. cbn. destruct (Nat.eqb_spec z y); [contradiction|reflexivity]. Qed.
Lemma put_before_alone : forall y x z, z <> y -> put_before y x [z] = [z].
Proof. intros y x z H. cbn. destruct (Nat.eqb_spec z y); [contradiction|reflexivity]. Qed.
Lemma without_alone : forall x z, z <> x -> without x [z] = [z].
Proof. intros x z H. apply rm_notin. cbn. intuition. Qed.

Lemma append_alone : forall t x p t', wf t -> alone t -> x <> tr_root t -> append x p t = Some t' -> alone t'.
Proof.
  intros t x p t' W [A1 A2] NE H. destruct (append_effect t t' (wf_links _ W) x p H) as (M & _ & _ & P & _ & S).
  unfold alone. rewrite (mv_root _ _ M), P, S by (try apply (wf_root _ W); congruence).
  destruct (Nat.eqb_spec (tr_root t) x); [congruence|]. split; [exact A1|]. rewrite A2. apply without_alone. congruence.
Qed.
Lemma prepend_alone : forall t x p t', wf t -> alone t -> x <> tr_root t -> prepend x p t = Some t' -> alone t'.
Proof.
  intros t x p t' W [A1 A2] NE H. destruct (prepend_effect t t' (wf_links _ W) x p H) as (M & _ & _ & P & _ & S).
  unfold alone. rewrite (mv_root _ _ M), P, S by (try apply (wf_root _ W); congruence).
  destruct (Nat.eqb_spec (tr_root t) x); [congruence|]. split; [exact A1|]. rewrite A2. apply without_alone. congruence.
Qed.
Lemma beside_alone : forall (after : bool) t x y t', wf t -> alone t -> x <> tr_root t -> y <> tr_root t ->
  lift_arena t (if after then a_insert_after y x (tr_arena t) else a_insert_before y x (tr_arena t)) = Some t' -> alone t'.
Proof.
  intros after t x y t' W [A1 A2] NX NY H. destruct (beside_effect t t' (wf_links _ W) after x y H) as (M & _ & _ & P & _ & S).
  unfold alone. rewrite (mv_root _ _ M), P, S by (apply (wf_root _ W)).
  destruct (Nat.eqb_spec (tr_root t) x); [congruence|]. split; [exact A1|]. rewrite A2, without_alone by congruence.
  destruct after; [apply put_after_alone|apply put_before_alone]; congruence.
Qed.
Lemma detach_alone : forall t x t', wf t -> alone t -> detach x t = Some t' -> alone t'.
Proof.
  intros t x t' W [A1 A2] H. destruct (detach_effect t t' (wf_links _ W) x H) as (M & _ & _ & P & _ & S).
  unfold alone. rewrite (mv_root _ _ M), P, S by (apply (wf_root _ W)).
  destruct (Nat.eqb_spec (tr_root t) x); [subst; auto|]. split; [exact A1|]. rewrite A2. apply without_alone. congruence.
Qed.
Lemma create_alone : forall t s x t', wf t -> alone t -> create_node s t = (x, t') -> alone t' /\ x <> tr_root t'.
Proof.
  intros t s x t' W [A1 A2] H. destruct (create_effect _ _ _ _ W H) as (_ & EX & LA & R & P & _ & S & _).
  unfold alone. rewrite R, P, S by (apply (wf_root _ W)). pose proof (wf_root _ W) as U. unfold node_of in U. split; [auto|lia].
Qed.
Lemma attrs_alone : forall i f t, wf t -> alone t -> (forall s, exists l, f s = set_sattrs l s) ->
  alone (with_arena t (upd i f (tr_arena t))).
Proof.
  intros i f t W [A1 A2] F. destruct (attrs_effect t i f W F) as (_ & R & _ & P & _ & S & _).
  unfold alone. rewrite R, P, S. auto.
Qed.

Lemma rooted_alone : forall t, rooted t -> alone t.
Proof.
  induction 1 as [|t o t' RT A LR H]; [split; reflexivity|]. pose proof (built_wf _ (rooted_built _ RT)) as W.
  destruct o; cbn [run_top leaves_root] in *.
  - injection H as <-. destruct (create_node name t) as [x t1] eqn:C. destruct (create_alone _ _ _ _ W A C). auto.
  - apply (append_alone t x p); auto.
  - apply (prepend_alone t x p); auto.
  - apply (beside_alone true t x y); tauto.
  - apply (beside_alone true t x y); tauto.
  - unfold append_new in H. destruct (create_node name t) as [x t1] eqn:C.
    destruct (create_step _ _ _ _ W C) as [W1 _]. destruct (create_alone _ _ _ _ W A C) as [A1 N1].
    destruct (option_map (pair x) _) as [r|] eqn:E; [|discriminate]. injection H as <-.
    apply new_inv in E as (a & E & ->). apply (append_alone t1 x p); auto. unfold append; rewrite E; reflexivity.
  - unfold prepend_new in H. destruct (create_node name t) as [x t1] eqn:C.
    destruct (create_step _ _ _ _ W C) as [W1 _]. destruct (create_alone _ _ _ _ W A C) as [A1 N1].
    destruct (option_map (pair x) _) as [r|] eqn:E; [|discriminate]. injection H as <-.
    apply new_inv in E as (a & E & ->). apply (prepend_alone t1 x p); auto. unfold prepend; rewrite E; reflexivity.
  - unfold insert_new_after in H. destruct (Nat.eqb_spec y (tr_root t)) as [|NY]; [discriminate|]. destruct (create_node name t) as [x t1] eqn:C.
    destruct (create_step _ _ _ _ W C) as [W1 _]. destruct (create_alone _ _ _ _ W A C) as [A1 N1].
    destruct (create_effect _ _ _ _ W C) as (_ & _ & _ & R & _).
    destruct (option_map (pair x) _) as [r|] eqn:E; [|discriminate]. injection H as <-.
    apply new_inv in E as (a & E & ->). apply (beside_alone true t1 x y); auto; [congruence|]. rewrite E; reflexivity.
  - unfold insert_new_before in H. destruct (Nat.eqb_spec y (tr_root t)) as [|NY]; [discriminate|]. destruct (create_node name t) as [x t1] eqn:C.
    destruct (create_step _ _ _ _ W C) as [W1 _]. destruct (create_alone _ _ _ _ W A C) as [A1 N1].
    destruct (create_effect _ _ _ _ W C) as (_ & _ & _ & R & _).
    destruct (option_map (pair x) _) as [r|] eqn:E; [|discriminate]. injection H as <-.
    apply new_inv in E as (a & E & ->). apply (beside_alone false t1 x y); auto; [congruence|]. rewrite E; reflexivity.
  - apply (detach_alone t x); auto.
  - unfold append_attribute in H. destruct (Nat.eqb i (tr_root t)); [discriminate|]. destruct (used _ i); [|discriminate]. injection H as <-.
    apply attrs_alone; eauto.
  - unfold assign_attribute in H. destruct (nth_error (tr_arena t) i); [|discriminate]. injection H as <-. cbn. apply attrs_alone; eauto.
  - unfold take_attributes in H. destruct (nth_error (tr_arena t) i); [|discriminate]. injection H as <-. cbn. apply attrs_alone; eauto.
  - unfold set_attributes in H. destruct (used _ i); [|discriminate]. injection H as <-. apply attrs_alone; eauto.
Qed.

Lemma upd_id : forall A i (f : A -> A) l, (forall x, nth_error l i = Some x -> f x = x) -> upd i f l = l.
Proof.
  intros A i f l. revert i. induction l as [|x l IH]; intros [|i] H; cbn; try reflexivity.
  - rewrite H; reflexivity.
  - rewrite IH; [reflexivity|]. exact H.
Qed.

(** Detaching the root changes nothing at all, when the root was never moved nor given
    siblings. *)
Theorem C36_root_partial : forall t, rooted t -> detach (tr_root t) t = Some t.
Proof.
  intros t RT. destruct (rooted_alone _ RT) as [A1 A2]. pose proof (built_wf _ (rooted_built _ RT)) as W.
  pose proof (wf_root _ W) as U. pose proof (wf_links _ W) as L.
  destruct (sibling_neighbours t L (tr_root t) [] (tr_root t) [] U A2) as [P N]. cbn in P, N.
  unfold parent, previous_sibling, next_sibling, lk in *. unfold detach, a_detach.
  destruct (nth_error (tr_arena t) (tr_root t)) as [s|] eqn:E; [|apply nth_error_None in E; unfold node_of in U; lia].
  rewrite A1, P, N. cbn [connect_neighbors lift_arena option_map]. f_equal.
  destruct s as [s1 s2 s3 s4 s5 s6 s7]; cbn in A1, P, N. subst.
  rewrite upd_id, upd_id.
  - destruct t; reflexivity.
  - intros x Hx. rewrite E in Hx. injection Hx as <-. reflexivity.
  - rewrite upd_id; [|intros x Hx; rewrite E in Hx; injection Hx as <-; reflexivity].
    intros x Hx. rewrite E in Hx. injection Hx as <-. reflexivity.
Qed.

Module RootCases.
  Open Scope byte_scope.
  (** The root is appended to an orphan, then detached. *)
  Definition story : list top := [OpCreate ["a"]; OpAppend 0 1].
  Definition sample : tree := match run_tops story tree_default with Some t => t | None => tree_default end.
  Lemma sample_run : run_tops story tree_default = Some sample. Proof. vm_compute. reflexivity. Qed.
  Lemma sample_built : built sample.
  Proof. apply (run_tops_built story tree_default); [constructor|exact sample_run]. Qed.
End RootCases.

(** The full claim on the root fails: the root can be moved under an orphan, and then
    detaching it is not a no-op. *)
Theorem C36_root_refuted : exists t t', grown t /\ detach (tr_root t) t = Some t' /\
  parent t' (tr_root t) <> parent t (tr_root t).
Proof.
  destruct (detach 0 RootCases.sample) as [t'|] eqn:E; [|vm_compute in E; discriminate].
  exists RootCases.sample, t'. split.
  - apply (run_tops_grown RootCases.story tree_default); [constructor|reflexivity|exact RootCases.sample_run].
  - split; [exact E|]. vm_compute in E. injection E as <-. vm_compute. discriminate.
Qed.

Lemma run_tops_rooted : forall l t t', rooted t ->
  (forall o, In o l -> match o with OpAppend _ _ | OpPrepend _ _ | OpInsertAfter _ _ | OpInsertBefore _ _ => False | _ => True end) ->
  run_tops l t = Some t' -> rooted t'.
Proof.
  induction l as [|o l IH]; intros t t' B N H; cbn in H.
  - injection H as <-. exact B.
  - destruct (run_top o t) as [t1|] eqn:E; [|discriminate]. apply (IH t1 t'); [|intros; apply N; cbn; auto|exact H].
    apply (rooted_op t o t1); [exact B| |exact E]. specialize (N o (or_introl eq_refl)). destruct o; cbn in *; tauto.
Qed.
Example C36_ex : rooted Cases.sample /\ exists t', detach 1 Cases.sample = Some t' /\ children t' 0 = [2] /\ children t' 1 = [4; 3].
Proof.
  split.
  - apply (run_tops_rooted Cases.story tree_default); [constructor| |exact Cases.sample_run].
    cbn. intros o H. repeat (destruct H as [<-|H]; [exact I|]). destruct H.
  - destruct (detach 1 Cases.sample) as [t'|] eqn:E; [|vm_compute in E; discriminate]. exists t'.
    split; [reflexivity|]. vm_compute in E. injection E as <-. vm_compute. auto.
Qed.

(** ** C37 *)

Definition named (t : tree) (s : list byte) (c : nat) : bool :=
  match name t c with Some n => bytes_eqb n s | None => false end.

Lemma name_total : forall t i, wf t -> node_of t i -> exists s, name t i = Some s.
Proof.
  intros t i W Hi. unfold name, name_sym. destruct (nth_error (tr_arena t) i) as [s|] eqn:E.
  - cbn. pose proof (wf_syms _ W _ _ E) as HS. destruct (nth_error (tr_names t) (sl_name s)) as [n|] eqn:EN; [eauto|].
    apply nth_error_None in EN. lia.
  - apply nth_error_None in E. unfold node_of in Hi. lia.
Qed.

Theorem C37_lookup : forall t i s, built t ->
  children_by_name t i s = filter (named t s) (children t i) /\
  first_child_by_name t i s = find (named t s) (children t i).
Proof.
  intros t i s B. pose proof (built_wf _ B) as W.
  assert (A : children_by_name t i s = filter (named t s) (children t i)).
  { unfold children_by_name. destruct (sym_of (tr_names t) s) as [y|] eqn:E.
    - apply filter_ext. intros c. unfold named, name. destruct (name_sym t c) as [z|] eqn:EZ; [|reflexivity].
      destruct (nth_error (tr_names t) z) as [n|] eqn:EN.
      + cbn. destruct (Nat.eqb_spec z y).
        * subst z. apply sym_of_spec in E. rewrite EN in E. injection E as ->. symmetry. apply bytes_eqb_refl.
        * symmetry. apply bytes_eqb_neq. intros ->. apply (sym_of_iff _ _ _ (wf_names _ W)) in EN. congruence.
      + exfalso. apply nth_error_None in EN. unfold name_sym in EZ. destruct (nth_error (tr_arena t) c) as [sl|] eqn:EC; [|discriminate].
        injection EZ as <-. pose proof (wf_syms _ W _ _ EC). lia.
    - apply sym_of_none in E. induction (children t i) as [|c l IH]; [reflexivity|]. cbn.
      replace (named t s c) with false; [exact IH|]. unfold named, name. destruct (name_sym t c) as [z|]; [|reflexivity].
      destruct (nth_error (tr_names t) z) as [n|] eqn:EN; [|reflexivity]. symmetry. apply bytes_eqb_neq. intros ->. apply E. apply (nth_error_In _ _ EN). }
  split; [exact A|]. unfold first_child_by_name. rewrite A. clear A. induction (children t i) as [|c l IH]; [reflexivity|]. cbn. destruct (named t s c); [reflexivity|exact IH].
Qed.

(** The string given to the creating operation, if any. *)
Definition created_name (o : top) : option (list byte) :=
  match o with
  | OpCreate s | OpAppendNew _ s | OpPrependNew _ s | OpInsertNewAfter _ s | OpInsertNewBefore _ s => Some s
  | _ => None
  end.

Theorem C37_names : forall t o t', built t -> run_top o t = Some t' ->
  (forall i, node_of t i -> name t' i = name t i /\ node_of t' i) /\
  (forall i, node_of t' i -> ~ node_of t i -> name t' i = created_name o) /\
  (forall i, node_of t i -> exists s, name t i = Some s).
Proof.
  intros t o t' B H. pose proof (built_wf _ B) as W.
  assert (MV : moved t t' -> (forall i, node_of t i -> name t' i = name t i /\ node_of t' i) /\ (forall i, node_of t' i -> ~ node_of t i -> name t' i = created_name o)).
  { intros M. split; intros i Hi.
    - split; [apply moved_name; exact M|]. apply (moved_nodes _ _ M). exact Hi.
    - intros N. apply (moved_nodes _ _ M) in Hi. contradiction. }
  assert (AT : forall j f, (forall s, exists l, f s = set_sattrs l s) -> t' = with_arena t (upd j f (tr_arena t)) ->
    (forall i, node_of t i -> name t' i = name t i /\ node_of t' i) /\ (forall i, node_of t' i -> ~ node_of t i -> name t' i = created_name o)).
  { intros j f F ->. destruct (attrs_effect t j f W F) as (_ & _ & SN & _ & _ & _ & NM & _). split; intros i Hi.
    - split; [apply NM|]. apply SN. exact Hi.
    - intros N. apply SN in Hi. contradiction. }
  assert (CR : forall s x, created_name o = Some s -> creates t t' s x ->
    (forall i, node_of t i -> name t' i = name t i /\ node_of t' i) /\ (forall i, node_of t' i -> ~ node_of t i -> name t' i = created_name o)).
  { intros s x E (_ & N & _ & OLD & NM & _). split; intros i Hi.
    - split; [apply OLD; exact Hi|]. apply N. auto.
    - intros NI. apply N in Hi as [Hi| ->]; [contradiction|]. congruence. }
  assert (G : (forall i, node_of t i -> name t' i = name t i /\ node_of t' i) /\ (forall i, node_of t' i -> ~ node_of t i -> name t' i = created_name o)).
  { destruct o; cbn [run_top] in H.
    - injection H as <-. destruct (create_node name t) as [x t1] eqn:C. cbn [snd] in *. apply (CR name x eq_refl).
      destruct (create_effect _ _ _ _ W C) as (_ & EX & LA & R & P & CH & SB & OLD & _ & NM & AT').
      split; [unfold node_of; lia|]. split; [intros i; unfold node_of; lia|]. auto.
    - apply MV. apply (append_effect t t' (wf_links _ W) x p H).
    - apply MV. apply (prepend_effect t t' (wf_links _ W) x p H).
    - apply MV. apply (beside_effect t t' (wf_links _ W) true x y H).
    - apply MV. apply (beside_effect t t' (wf_links _ W) true x y H).
    - destruct (append_new p name t) as [[x t1]|] eqn:E; [|discriminate]. injection H as <-. apply (CR name x eq_refl). apply (C35_append_new _ _ _ _ _ B E).
    - destruct (prepend_new p name t) as [[x t1]|] eqn:E; [|discriminate]. injection H as <-. apply (CR name x eq_refl). apply (C35_prepend_new _ _ _ _ _ B E).
    - destruct (insert_new_after y name t) as [[x t1]|] eqn:E; [|discriminate]. injection H as <-. apply (CR name x eq_refl). apply (C35_insert_new_after _ _ _ _ _ B E).
    - destruct (insert_new_before y name t) as [[x t1]|] eqn:E; [|discriminate]. injection H as <-. apply (CR name x eq_refl). apply (C35_insert_new_before _ _ _ _ _ B E).
    - apply MV. apply (detach_effect t t' (wf_links _ W) x H).
    - unfold append_attribute in H. destruct (Nat.eqb i (tr_root t)); [discriminate|]. destruct (used _ i); [|discriminate]. injection H as <-. eapply AT; [|reflexivity]; eauto.
    - unfold assign_attribute in H. destruct (nth_error (tr_arena t) i); [|discriminate]. injection H as <-. eapply AT; [|reflexivity]; eauto.
    - unfold take_attributes in H. destruct (nth_error (tr_arena t) i); [|discriminate]. injection H as <-. eapply AT; [|reflexivity]; eauto.
    - unfold set_attributes in H. destruct (used _ i); [|discriminate]. injection H as <-. eapply AT; [|reflexivity]; eauto. }
  destruct G as [G1 G2]. split; [exact G1|]. split; [exact G2|]. intros i Hi. apply name_total; assumption.
Qed.

Example C37_ex : built Cases.sample /\ children_by_name Cases.sample 1 ["a"%byte] = [4] /\
  first_child_by_name Cases.sample 0 ["c"%byte] = None /\ name Cases.sample 3 = Some ["c"%byte].
Proof. split; [exact Cases.sample_built|]. vm_compute. auto. Qed.

(** ** C40 *)

Section Attrs.
Context (t t' : tree) (B : built t).

(** Everything but the attributes of node [i]. *)
Definition only_attributes (i : nat) : Prop :=
  tr_root t' = tr_root t /\ same_nodes t t' /\
  (forall j, parent t' j = parent t j) /\ (forall q, children t' q = children t q) /\
  (forall j, siblings t' j = siblings t j) /\ (forall j, name t' j = name t j) /\
  (forall j, j <> i -> attributes t' j = attributes t j).

Lemma only_attrs : forall i f, (forall s, exists l, f s = set_sattrs l s) -> t' = with_arena t (upd i f (tr_arena t)) ->
  only_attributes i /\ attributes t' i = option_map (fun s => sl_attrs (f s)) (nth_error (tr_arena t) i).
Proof.
  intros i f F E. destruct (attrs_effect t i f (built_wf _ B) F) as (_ & R & SN & P & C & S & N & A).
  rewrite <- E in R, SN, P, C, S, N, A. split.
  - unfold only_attributes. split; [exact R|]. split; [exact SN|]. split; [exact P|]. split; [exact C|]. split; [exact S|]. split; [exact N|].
    intros j Hj. rewrite A. destruct (Nat.eqb_spec j i); [contradiction|reflexivity].
  - rewrite A, Nat.eqb_refl. reflexivity.
Qed.

Theorem C40_append_attribute : forall i v, append_attribute i v t = Some t' ->
  only_attributes i /\ i <> tr_root t /\
  exists l, attributes t i = Some l /\ attributes t' i = Some (l ++ [v]).
Proof.
  intros i v H. unfold append_attribute in H. destruct (Nat.eqb_spec i (tr_root t)) as [|NR]; [discriminate|].
  destruct (used (tr_arena t) i) eqn:U; [|discriminate]. injection H as H. symmetry in H. apply used_lt in U.
  destruct (only_attrs i (fun s => set_sattrs (sl_attrs s ++ [v]) s)) as [O A]; [eauto|exact H|].
  split; [exact O|]. split; [exact NR|]. unfold attributes at 1. destruct (nth_error (tr_arena t) i) as [s|] eqn:E; [|apply nth_error_None in E; lia].
  cbn in A. eexists. split; [reflexivity|exact A].
Qed.
Theorem C40_append_attribute_panics : forall i v,
  append_attribute i v t = None <-> i = tr_root t \/ ~ node_of t i.
Proof.
  intros i v. unfold append_attribute. destruct (Nat.eqb_spec i (tr_root t)); [tauto|]. unfold node_of.
  destruct (used (tr_arena t) i) eqn:U.
  - apply used_lt in U. split; [discriminate|]. tauto.
  - unfold used in U. apply Nat.ltb_ge in U. split; [intros _; right; lia|reflexivity].
Qed.

(** Writing through the reference of [get_attribute_mut]: replaces the [k]-th attribute when
    there is one, and otherwise there is no reference and nothing changes. *)
Theorem C40_assign_attribute : forall i k v old, assign_attribute i k v t = Some (old, t') ->
  only_attributes i /\
  exists l, attributes t i = Some l /\ old = nth_error l k /\
    (forall m, nth_error l k = Some m -> exists l1 l2, l = l1 ++ m :: l2 /\ length l1 = k /\ attributes t' i = Some (l1 ++ v :: l2)) /\
    (nth_error l k = None -> attributes t' i = Some l).
Proof.
  intros i k v old H. unfold assign_attribute in H. destruct (nth_error (tr_arena t) i) as [s|] eqn:E; [|discriminate]. injection H as <- H. symmetry in H.
  destruct (only_attrs i (fun s => set_sattrs (upd k (fun _ => v) (sl_attrs s)) s)) as [O A]; [eauto|exact H|].
  split; [exact O|]. rewrite E in A. cbn in A. exists (sl_attrs s). unfold attributes at 1. rewrite E. split; [reflexivity|]. split; [reflexivity|]. split.
  - intros m Hm. destruct (nth_error_split _ _ Hm) as (l1 & l2 & EL & LE). exists l1, l2. split; [exact EL|]. split; [exact LE|].
    rewrite A. f_equal. rewrite EL, <- LE. clear. induction l1 as [|x l1 IH]; cbn; [reflexivity|]. rewrite IH. reflexivity.
  - intros HN. rewrite A. f_equal. apply upd_id. intros x Hx. congruence.
Qed.
Theorem C40_take_attributes : forall i l, take_attributes i t = Some (l, t') ->
  only_attributes i /\ attributes t i = Some l /\ attributes t' i = Some [].
Proof.
  intros i l H. unfold take_attributes in H. destruct (nth_error (tr_arena t) i) as [s|] eqn:E; [|discriminate]. injection H as <- H. symmetry in H.
  destruct (only_attrs i (set_sattrs [])) as [O A]; [eauto|exact H|].
  split; [exact O|]. rewrite E in A. unfold attributes at 1. rewrite E. auto.
Qed.
Theorem C40_set_attributes : forall i l, set_attributes i l t = Some t' ->
  only_attributes i /\ attributes t' i = Some l.
Proof.
  intros i l H. unfold set_attributes in H. destruct (used (tr_arena t) i) eqn:U; [|discriminate]. injection H as H. symmetry in H. apply used_lt in U.
  destruct (only_attrs i (set_sattrs l)) as [O A]; [eauto|exact H|].
  split; [exact O|]. destruct (nth_error (tr_arena t) i) as [s|] eqn:E; [|apply nth_error_None in E; lia]. rewrite ?E in A. exact A.
Qed.
End Attrs.

(** The root never gets attributes as long as [set_attributes_vec] is not used on it. *)
Definition keeps_root_bare (o : top) (t : tree) : Prop :=
  match o with OpSetAttributes i _ => i <> tr_root t | _ => True end.
Inductive bare : tree -> Prop :=
| bare_default : bare tree_default
| bare_op : forall t o t', bare t -> keeps_root_bare o t -> run_top o t = Some t' -> bare t'.
Lemma bare_built : forall t, bare t -> built t.
Proof. induction 1; [constructor|econstructor; eauto]. Qed.

Theorem C40_root_partial : forall t, bare t -> attributes t (tr_root t) = Some [].
Proof.
  induction 1 as [|t o t' BT IH K H]; [reflexivity|]. pose proof (bare_built _ BT) as B. pose proof (built_wf _ B) as W.
  pose proof (wf_root _ W) as U.
  assert (MV : moved t t' -> attributes t' (tr_root t') = Some []).
  { intros M. rewrite (mv_root _ _ M), (moved_attrs _ _ _ M). exact IH. }
  assert (CR : forall s x, creates t t' s x -> attributes t' (tr_root t') = Some []).
  { intros s x (_ & _ & R & OLD & _). rewrite R. destruct (OLD _ U) as [_ ->]. exact IH. }
  assert (AT : forall i, only_attributes t t' i -> i <> tr_root t -> attributes t' (tr_root t') = Some []).
  { intros i (R & _ & _ & _ & _ & _ & A) NE. rewrite R, A by congruence. exact IH. }
  destruct o; cbn [run_top keeps_root_bare] in *.
  - injection H as <-. destruct (create_node name t) as [x t1] eqn:C. apply (CR name x).
    destruct (create_effect _ _ _ _ W C) as (_ & EX & LA & R & _ & _ & _ & OLD & _ & NM & AT').
    split; [unfold node_of; lia|]. split; [intros i; unfold node_of; cbn; lia|]. auto.
  - apply MV. apply (append_effect t t' (wf_links _ W) x p H).
  - apply MV. apply (prepend_effect t t' (wf_links _ W) x p H).
  - apply MV. apply (beside_effect t t' (wf_links _ W) true x y H).
  - apply MV. apply (beside_effect t t' (wf_links _ W) true x y H).
  - destruct (append_new p name t) as [[x t1]|] eqn:E; [|discriminate]. injection H as <-. apply (CR name x). apply (C35_append_new _ _ _ _ _ B E).
  - destruct (prepend_new p name t) as [[x t1]|] eqn:E; [|discriminate]. injection H as <-. apply (CR name x). apply (C35_prepend_new _ _ _ _ _ B E).
  - destruct (insert_new_after y name t) as [[x t1]|] eqn:E; [|discriminate]. injection H as <-. apply (CR name x). apply (C35_insert_new_after _ _ _ _ _ B E).
  - destruct (insert_new_before y name t) as [[x t1]|] eqn:E; [|discriminate]. injection H as <-. apply (CR name x). apply (C35_insert_new_before _ _ _ _ _ B E).
  - apply MV. apply (detach_effect t t' (wf_links _ W) x H).
  - destruct (C40_append_attribute t t' B _ _ H) as (O & NR & _). apply (AT i O NR).
  - destruct (assign_attribute i k v t) as [[old t1]|] eqn:E; [|discriminate]. injection H as <-.
    destruct (C40_assign_attribute t t1 B _ _ _ _ E) as (O & l & A & _ & _ & NC).
    destruct (Nat.eq_dec i (tr_root t)) as [->|NE]; [|apply (AT i O NE)]. rewrite IH in A. injection A as <-.
    destruct O as (R & _). cbn. rewrite R. apply NC. destruct k; reflexivity.
  - destruct (take_attributes i t) as [[l t1]|] eqn:E; [|discriminate]. injection H as <-.
    destruct (C40_take_attributes t t1 B _ _ E) as (O & _ & A).
    destruct (Nat.eq_dec i (tr_root t)) as [->|NE]; [|apply (AT i O NE)]. destruct O as (R & _). cbn. rewrite R. exact A.
  - destruct (C40_set_attributes t t' B _ _ H) as (O & _). apply (AT i O K).
Qed.

Example C40_ex : built Cases.sample /\ bare Cases.sample /\ attributes Cases.sample 3 = Some [VI32 7%Z] /\
  (exists t', append_attribute 3 (VBool true) Cases.sample = Some t' /\ attributes t' 3 = Some [VI32 7%Z; VBool true]) /\
  append_attribute 0 (VBool true) Cases.sample = None.
Proof.
  split; [exact Cases.sample_built|]. split.
  { pose proof Cases.sample_run as R. revert R. generalize Cases.sample. intros s. unfold Cases.story.
    repeat match goal with |- context [run_tops (?o :: ?l) ?t] => change (run_tops (o :: l) t) with (match run_top o t with Some t' => run_tops l t' | None => None end) end.
    assert (G : forall l t t', bare t -> (forall o, In o l -> match o with OpSetAttributes _ _ => False | _ => True end) -> run_tops l t = Some t' -> bare t').
    { induction l as [|o l IH]; intros t t' B N H; cbn in H; [injection H as <-; exact B|].
      destruct (run_top o t) as [t1|] eqn:E; [|discriminate]. apply (IH t1 t'); [|intros; apply N; cbn; auto|exact H].
      apply (bare_op t o t1); [exact B| |exact E]. specialize (N o (or_introl eq_refl)). destruct o; cbn in *; tauto. }
    intros R. apply (G Cases.story tree_default); [constructor| |exact R].
    cbn. intros o H. repeat (destruct H as [<-|H]; [exact I|]). destruct H. }
  split; [vm_compute; reflexivity|]. split; [|vm_compute; reflexivity].
  destruct (append_attribute 3 (VBool true) Cases.sample) as [t'|] eqn:E; [|vm_compute in E; discriminate]. exists t'.
  split; [reflexivity|]. vm_compute in E. injection E as <-. vm_compute. reflexivity.
Qed.

(** The claim that every attribute operation panics on the root fails: the root can be given
    attributes with [set_attributes_vec], and [take_attributes_vec] and [get_attribute_mut]
    accept it too. *)
Theorem C40_root_refuted : exists t v t', built t /\
  set_attributes (tr_root t) [v] t = Some t' /\ attributes t' (tr_root t') = Some [v] /\
  take_attributes (tr_root t) t <> None /\ assign_attribute (tr_root t) 0 v t <> None.
Proof.
  exists tree_default, (VI32 1%Z). eexists. split; [constructor|]. split; [reflexivity|]. split; [reflexivity|].
  split; vm_compute; discriminate.
Qed.
