(** C82: stepping from event to event without a traversal object. *)
Require Import Coq.Lists.List Coq.Arith.PeanoNat Coq.Bool.Bool Lia.
Require Import Coq.Init.Byte.
Require Import Verif.Base Verif.Types Verif.Tree Verif.TreeFacts Verif.TreeSpec Verif.TreeLinks Verif.TreeOps Verif.TreePaths Verif.PropsTree Verif.PropsTraverse.
Import ListNotations.
Local Open Scope nat_scope.

(** [DepthFirstTraversed::is_close], /repo/src/tree/v7400.rs lines 425-427, [node_id_open], lines
    432-437, and [node_id_close], lines 442-447. *)
Definition is_close (e : dft) : bool := match e with DOpen _ => false | DClose _ => true end.
Definition node_id_open (e : dft) : option nat := match e with DOpen i => Some i | DClose _ => None end.
Definition node_id_close (e : dft) : option nat := match e with DOpen _ => None | DClose i => Some i end.

(** Parents before their children, and children before their parents. *)
Fixpoint preorder (r : rose) : list nat := match r with Rose i ks => i :: flat_map preorder ks end.
Fixpoint postorder (r : rose) : list nat := match r with Rose i ks => flat_map postorder ks ++ [i] end.
(** What a client collects that looks for events of one kind. *)
Fixpoint collect {A B} (f : A -> option B) (l : list A) : list B :=
  match l with [] => [] | a :: l => match f a with Some b => b :: collect f l | None => collect f l end end.
(** The event after [n] steps. *)
Fixpoint steps (step : dft -> option dft) (n : nat) (e : dft) : option dft :=
  match n with O => Some e | S n => match step e with Some e => steps step n e | None => None end end.

(** In any tree a client can build, cycles included, [next] and [prev] undo each other. *)
Theorem C82_next_prev : forall t a b, built t -> node_of t (dft_id a) -> node_of t (dft_id b) ->
  (dft_next t a = Some b <-> dft_prev t b = Some a).
Proof.
  intros t a b B Ha Hb. pose proof (wf_links _ (built_wf _ B)) as L. split.
  - destruct a as [c|c]; cbn [dft_next dft_id] in *; destruct (ends t L c) as [EF EL].
    + destruct (first_child t c) as [k|] eqn:F; intros H; injection H as <-; cbn [dft_prev].
      * symmetry in EF. destruct (hd_error_some _ _ _ EF) as [l E]. destruct (neighbours t L c [] k l E) as [-> _]. cbn [last_opt].
        assert (IK : In k (children t c)) by (rewrite E; cbn; auto). apply (child_parent t L) in IK. rewrite IK. reflexivity.
      * rewrite EL. destruct (children t c); [reflexivity|discriminate].
    + destruct (next_sibling t c) as [s|] eqn:F.
      * intros H; injection H as <-. cbn [dft_prev]. destruct (next_prev t L c s Ha F) as (_ & -> & _). reflexivity.
      * destruct (parent t c) as [p|] eqn:P; [|discriminate]. intros H; injection H as <-. cbn [dft_prev].
        destruct (ends t L p) as [_ ->]. assert (IC : In c (children t p)) by (apply (child_parent t L); exact P).
        destruct (in_split _ _ IC) as (l1 & l2 & E). destruct (neighbours t L p l1 c l2 E) as [_ N]. rewrite F in N.
        destruct l2; [|discriminate]. rewrite E, last_opt_app. reflexivity.
  - destruct b as [c|c]; cbn [dft_prev dft_id] in *; destruct (ends t L c) as [EF EL].
    + destruct (previous_sibling t c) as [s|] eqn:F.
      * intros H; injection H as <-. cbn [dft_next]. destruct (prev_next t L c s Hb F) as (_ & -> & _). reflexivity.
      * destruct (parent t c) as [p|] eqn:P; [|discriminate]. intros H; injection H as <-. cbn [dft_next].
        destruct (ends t L p) as [-> _]. assert (IC : In c (children t p)) by (apply (child_parent t L); exact P).
        destruct (in_split _ _ IC) as (l1 & l2 & E). destruct (neighbours t L p l1 c l2 E) as [N _]. rewrite F in N.
        symmetry in N. apply last_opt_none in N. subst l1. rewrite E. reflexivity.
    + destruct (last_child t c) as [k|] eqn:F; intros H; injection H as <-; cbn [dft_next].
      * symmetry in EL. destruct (last_opt_some _ _ _ EL) as [l E]. destruct (neighbours t L c l k [] E) as [_ ->]. cbn [hd_error].
        assert (IK : In k (children t c)) by (rewrite E, in_app_iff; cbn; auto). apply (child_parent t L) in IK. rewrite IK. reflexivity.
      * rewrite EF. symmetry in EL. apply last_opt_none in EL. rewrite EL. reflexivity.
Qed.

Lemma chain_steps : forall t q a k e, chain t (a :: q) -> nth_error (a :: q) k = Some e -> steps (dft_next t) k a = Some e.
Proof.
  intros t. induction q as [|b q IH]; intros a k e H N.
  - destruct k as [|k]; [exact N|]. destruct k; discriminate.
  - destruct k as [|k]; [exact N|]. destruct H as [[H1 _] H2]. cbn [steps]. rewrite H1. apply IH; assumption.
Qed.
Lemma steps_add : forall st m n e, steps st (m + n) e = match steps st m e with Some x => steps st n x | None => None end.
Proof. intros st. induction m as [|m IH]; intros n e; [reflexivity|]. cbn. destruct (st e); [apply IH|reflexivity]. Qed.
Lemma chain_steps_back : forall t q a k e, chain t (a :: q) -> nth_error (a :: q) k = Some e -> steps (dft_prev t) k e = Some a.
Proof.
  intros t. induction q as [|b q IH]; intros a k e H N.
  - destruct k as [|k]; [injection N as ->; reflexivity|]. destruct k; discriminate.
  - destruct k as [|k]; [injection N as ->; reflexivity|]. destruct H as [[_ H1] H2]. cbn [nth_error] in N.
    replace (S k) with (k + 1) by lia. rewrite steps_add, (IH b k e H2 N). cbn. rewrite H1. reflexivity.
Qed.

Lemma chain_last : forall t l b k e, chain t (l ++ [b]) -> nth_error (b :: rev l) k = Some e ->
  steps (dft_prev t) k b = Some e /\ steps (dft_next t) k e = Some b.
Proof.
  intros t. induction l as [|a l IH] using rev_ind; intros b k e H N.
  - destruct k as [|k]; [injection N as ->; auto|]. destruct k; discriminate.
  - destruct k as [|k]; [injection N as ->; auto|]. rewrite <- app_assoc in H. destruct (chain_pair t l a b [] H) as [H1 H2].
    rewrite rev_app_distr in N. cbn [rev app nth_error] in N.
    destruct (IH a k e) as [I1 I2]; [|exact N|].
    + rewrite app_assoc in H. apply chain_back in H. exact H.
    + cbn [steps]. rewrite H2. split; [exact I1|]. change (steps (dft_next t) (S k) e = Some b). replace (S k) with (k + 1) by lia.
      rewrite steps_add, I2. cbn. rewrite H1. reflexivity.
Qed.

(** From the opening of a node the events of its subtree follow one another; from its closing
    [prev] gives them in the opposite order. *)
Theorem C82_walk : forall t r k e, grown t -> rose_at t r ->
  (nth_error (dfs r) k = Some e ->
    steps (dft_next t) k (DOpen (rose_id r)) = Some e /\ steps (dft_prev t) k e = Some (DOpen (rose_id r))) /\
  (nth_error (rev (dfs r)) k = Some e ->
    steps (dft_prev t) k (DClose (rose_id r)) = Some e /\ steps (dft_next t) k e = Some (DClose (rose_id r))).
Proof.
  intros t r k e G R. pose proof (wf_links _ (built_wf _ (grown_built _ G))) as L. pose proof (dfs_chain t L r R) as C.
  destruct r as [i ks]. cbn [dfs rose_id] in *. split; intros N.
  - split; [apply (chain_steps t _ _ k e C N)|apply (chain_steps_back t _ _ k e C N)].
  - rewrite app_comm_cons in C, N. rewrite rev_app_distr in N. apply (chain_last t _ _ k e C N).
Qed.

(** Starting at the root, when the root was never moved nor given siblings, the walk is the whole
    document and then ends. *)
Theorem C82_document_partial : forall t r k, grown t -> rooted t -> rose_at t r -> rose_id r = tr_root t ->
  steps (dft_next t) k (DOpen (tr_root t)) = nth_error (dfs r) k /\
  steps (dft_prev t) k (DClose (tr_root t)) = nth_error (rev (dfs r)) k.
Proof.
  intros t r k G RT R E. destruct (rooted_alone _ RT) as [A1 A2]. pose proof (built_wf _ (rooted_built _ RT)) as W. pose proof (wf_links _ W) as L.
  destruct (sibling_neighbours t L (tr_root t) [] (tr_root t) [] (wf_root _ W) A2) as [SP SN]. cbn in SP, SN.
  assert (LD : length (dfs r) = S (pred (length (dfs r)))) by (destruct r; reflexivity).
  assert (NL : nth_error (dfs r) (pred (length (dfs r))) = Some (DClose (rose_id r))).
  { destruct r as [i ks]. cbn [dfs rose_id length Nat.pred]. rewrite app_length. cbn [length].
    rewrite app_comm_cons, nth_error_app2 by (cbn; lia). replace (_ - _) with 0 by (cbn; lia). reflexivity. }
  split.
  - destruct (nth_error (dfs r) k) as [e|] eqn:N.
    + rewrite <- E. apply C82_walk; assumption.
    + apply nth_error_None in N. destruct (C82_walk t r (pred (length (dfs r))) (DClose (rose_id r)) G R) as [S1 _]. specialize (S1 NL) as [S1 _]. rewrite <- E.
      replace k with (pred (length (dfs r)) + S (k - length (dfs r))) by lia. rewrite steps_add, S1, E. cbn [steps dft_next].
      rewrite SN, A1. reflexivity.
  - destruct (nth_error (rev (dfs r)) k) as [e|] eqn:N.
    + rewrite <- E. apply C82_walk; assumption.
    + apply nth_error_None in N. rewrite rev_length in N.
      destruct (C82_walk t r (pred (length (dfs r))) (DClose (rose_id r)) G R) as [S1 _]. specialize (S1 NL) as [_ S1]. rewrite <- E.
      replace k with (pred (length (dfs r)) + S (k - length (dfs r))) by lia. rewrite steps_add, S1, E. cbn [steps dft_prev].
      rewrite SP, A1. reflexivity.
Qed.

(** The documentation of [next] and [prev] says without proviso that [next] returns [None] for the
    closing of the root, and [prev] for its opening.  It fails when the root was moved. *)
Theorem C82_root_end_refuted : exists t, grown t /\ dft_next t (DClose (tr_root t)) <> None /\ dft_prev t (DOpen (tr_root t)) <> None.
Proof.
  exists RootCases.sample. split; [|split; vm_compute; discriminate].
  apply (run_tops_grown RootCases.story tree_default); [constructor|reflexivity|exact RootCases.sample_run].
Qed.

(** The nodes opened are the nodes in the order of the document, and those closed come children
    first; every event is one or the other. *)
Theorem C82_orders : forall r, collect node_id_open (dfs r) = preorder r /\ collect node_id_close (dfs r) = postorder r /\
  forall e, is_close e = negb (is_open e) /\ (is_open e = true <-> node_id_open e = Some (dft_id e)) /\ (is_close e = true <-> node_id_close e = Some (dft_id e)).
Proof.
  assert (CA : forall A B (f : A -> option B) l m, collect f (l ++ m) = collect f l ++ collect f m).
  { intros A B f. induction l as [|a l IH]; intros m; [reflexivity|]. cbn. destruct (f a); cbn; rewrite IH; reflexivity. }
  intros r. split; [|split].
  - induction r as [i ks IH] using rose_ind'. cbn [dfs preorder collect node_id_open]. rewrite CA. cbn [collect node_id_open]. rewrite app_nil_r. f_equal.
    induction IH as [|k ks E _ IH]; [reflexivity|]. cbn. rewrite CA, E, IH. reflexivity.
  - induction r as [i ks IH] using rose_ind'. cbn [dfs postorder collect node_id_close]. rewrite CA. cbn [collect node_id_close]. f_equal.
    induction IH as [|k ks E _ IH]; [reflexivity|]. cbn. rewrite CA, E, IH. reflexivity.
  - intros [i|i]; cbn; repeat split; congruence.
Qed.

(** ** Concrete cases *)
Module StepCases.
Example walk_ex : grown Cases.sample /\ rooted Cases.sample /\ exists r, rose_at Cases.sample r /\ rose_id r = tr_root Cases.sample /\
  map (fun k => steps (dft_next Cases.sample) k (DOpen 0)) [0; 3; 9; 10; 11] = [Some (DOpen 0); Some (DClose 4); Some (DClose 0); None; None] /\
  map (fun k => steps (dft_prev Cases.sample) k (DClose 0)) [2; 9; 10] = [Some (DOpen 2); Some (DOpen 0); None] /\
  preorder r = [0; 1; 4; 3; 2] /\ postorder r = [4; 3; 1; 2; 0].
Proof.
  split; [exact Cases.sample_grown|]. split; [exact (proj1 C36_ex)|].
  exists (Rose 0 [Rose 1 [Rose 4 []; Rose 3 []]; Rose 2 []]). split; [|repeat split].
  repeat (constructor; try (vm_compute; reflexivity); try (vm_compute; lia)).
Qed.
(** With a cycle: the events still lead back to where they came from. *)
Example loop_ex : built Cases.looped /\ steps (dft_next Cases.looped) 5 (DOpen 1) = Some (DOpen 2) /\ steps (dft_prev Cases.looped) 5 (DOpen 2) = Some (DOpen 1).
Proof. split; [exact Cases.looped_built|]. split; vm_compute; reflexivity. Qed.
End StepCases.

Print Assumptions C82_next_prev.
Print Assumptions C82_walk.
Print Assumptions C82_document_partial.
Print Assumptions C82_root_end_refuted.
Print Assumptions C82_orders.
