(** C76: editing a tree while a traversal of it is under way.

    A traversal ([DepthFirstTraverseSubtree], v7400.rs lines 516-628) is a pair of cursors that
    does not borrow the tree: the tree is passed to each call, so it can be edited between two
    calls. *)
Require Import Coq.Lists.List Coq.Arith.PeanoNat Coq.Bool.Bool Lia.
Require Import Coq.Init.Byte.
Require Import Verif.Base Verif.BaseFacts Verif.Types Verif.Tree Verif.TreeFacts Verif.TreeSpec Verif.TreeLinks Verif.TreeOps Verif.TreePaths.
Require Import Verif.PropsTree Verif.PropsTraverse.
Import ListNotations.

(** ** Specification *)

(** A session: calls on the traversal and edits of the tree, in any order. *)
Inductive step := Call (k : tcall) | Edit (o : top).
(** The results of the calls, the tree and the cursors at the end; [None]: something panics. *)
Fixpoint run_steps (l : list step) (t : tree) (c : cursors) : option (list (option dft) * tree * cursors) :=
  match l with
  | [] => Some ([], t, c)
  | Call k :: l' =>
      match run_tcall t k c with
      | None => None
      | Some (r, c') => match run_steps l' t c' with Some (rs, t', c'') => Some (r :: rs, t', c'') | None => None end
      end
  | Edit o :: l' => match run_top o t with Some t' => run_steps l' t' c | None => None end
  end.

(** The node that an operation moves, if it moves one. *)
Definition subject (o : top) : option nat :=
  match o with
  | OpAppend x _ | OpPrepend x _ | OpInsertAfter x _ | OpInsertBefore x _ | OpDetach x => Some x
  | _ => None
  end.
(** The edit takes neither cursor along, or takes along the whole subtree traversed (of the
    node [i]). *)
Definition undisturbed (o : top) (t : tree) (i : nat) (c : cursors) : Prop :=
  match subject o, c with
  | Some x, Some (f, b) => above t x i \/ (~ above t x (dft_id f) /\ ~ above t x (dft_id b))
  | _, _ => True
  end.
(** All edits of a session are such, do not panic and put no node beside its own descendant. *)
Fixpoint fine (l : list step) (i : nat) (t : tree) (c : cursors) : Prop :=
  match l with
  | [] => True
  | Call k :: l' => match run_tcall t k c with Some (_, c') => fine l' i t c' | None => True end
  | Edit o :: l' => undisturbed o t i c /\ sane o t /\ exists t', run_top o t = Some t' /\ fine l' i t' c
  end.

(** The events of the subtree of [i], as it is now: [q] are those still to come, from the one
    cursor to the other, [pre] those before and [post] those after. *)
Definition place (t : tree) (i : nat) (c : cursors) (pre q post : list dft) : Prop :=
  exists r, rose_at t r /\ rose_id r = i /\ dfs r = pre ++ q ++ post /\
    match c with
    | None => q = []
    | Some (f, b) => hd_error q = Some f /\ last_opt q = Some b
    end.

(** The two sequences agree, apart from events of nodes with [P]. *)
Definition same_except (P : nat -> Prop) (q q' : list dft) : Prop :=
  exists keep : dft -> bool, (forall e, keep e = true <-> ~ P (dft_id e)) /\ filter keep q' = filter keep q.
(** The nodes an edit is about: those that move, or else the new one. *)
Definition concerned (o : top) (t : tree) (j : nat) : Prop :=
  match subject o with Some x => above t x j | None => ~ node_of t j end.

(** A subsequence. *)
Inductive subseq {A} : list A -> list A -> Prop :=
| sub_nil : subseq [] []
| sub_skip : forall x l m, subseq l m -> subseq l (x :: m)
| sub_take : forall x l m, subseq l m -> subseq (x :: l) (x :: m).

(** ** Lists *)

Lemma filter_mid : forall A (p : A -> bool) l X e Y, filter p l = X ++ e :: Y ->
  exists a b, l = a ++ e :: b /\ filter p a = X /\ filter p b = Y.
Proof.
  intros A p. induction l as [|z l IH]; intros X e Y H; cbn in H; [destruct X; discriminate|].
  destruct (p z) eqn:E.
  - destruct X as [|x X]; injection H as -> H.
    + exists [], l. auto.
    + destruct (IH _ _ _ H) as (a & b & -> & <- & <-). exists (x :: a), b. cbn. rewrite E. auto.
  - destruct (IH _ _ _ H) as (a & b & -> & <- & <-). exists (z :: a), b. cbn. rewrite E. auto.
Qed.

Lemma rev_destruct : forall A (l : list A), l = [] \/ exists k e, l = k ++ [e].
Proof. intros A l. destruct l as [|e k] using rev_ind; [auto|right; eauto]. Qed.
Lemma filter_split : forall A (p : A -> bool) l X Y, filter p l = X ++ Y -> exists a b, l = a ++ b /\ filter p a = X /\ filter p b = Y.
Proof.
  intros A p l [|x X] Y H.
  - exists [], l. auto.
  - destruct (rev_destruct _ (x :: X)) as [E|(k & e & E)]; [discriminate|]. rewrite E in *. rewrite <- app_assoc in H. cbn in H.
    destruct (filter_mid _ _ _ _ _ _ H) as (a & b & -> & <- & <-). exists (a ++ [e]), b. rewrite <- app_assoc, filter_app. split; [reflexivity|].
    split; [|reflexivity]. assert (HE : p e = true) by (assert (HI : In e (filter p (a ++ e :: b))) by (rewrite H, in_app_iff; cbn; auto); apply filter_In in HI; apply HI).
    cbn. rewrite HE. reflexivity.
Qed.

Lemma segment : forall (p : dft -> bool) l l' pre q post f b, filter p l = filter p l' ->
  l = pre ++ q ++ post -> hd_error q = Some f -> last_opt q = Some b -> p f = true -> p b = true ->
  exists pre' q' post', l' = pre' ++ q' ++ post' /\ hd_error q' = Some f /\ last_opt q' = Some b /\
    filter p pre' = filter p pre /\ filter p q' = filter p q /\ filter p post' = filter p post.
Proof.
  intros p l l' pre q post f b E -> HF HB PF PB. rewrite !filter_app in E.
  destruct (hd_error_some _ _ _ HF) as [q1 ->]. cbn [filter] in E. rewrite PF in E. cbn [app] in E.
  symmetry in E. destruct (filter_mid _ _ _ _ _ _ E) as (a & m & -> & EA & EM).
  change (f :: q1) with ([f] ++ q1) in HB. rewrite last_opt_app2 in HB. destruct (last_opt q1) as [z|] eqn:EL.
  - injection HB as ->. destruct (last_opt_some _ _ _ EL) as [k ->]. rewrite filter_app in EM. cbn [filter] in EM. rewrite PB in EM.
    rewrite <- app_assoc in EM. cbn [app] in EM.
    destruct (filter_mid _ _ _ _ _ _ EM) as (m1 & m2 & -> & E1 & E2).
    exists a, (f :: m1 ++ [b]), m2. split; [cbn [app]; rewrite <- app_assoc; reflexivity|].
    split; [reflexivity|]. split; [change (f :: m1 ++ [b]) with ((f :: m1) ++ [b]); apply last_opt_app|].
    split; [exact EA|]. split; [|exact E2]. cbn [filter]. rewrite PF, !filter_app, E1. cbn [filter]. rewrite PB. reflexivity.
  - cbn in HB. injection HB as ->. apply last_opt_none in EL. subst q1.
    exists a, [b], m. split; [reflexivity|]. split; [reflexivity|]. split; [reflexivity|]. split; [exact EA|]. split; [reflexivity|exact EM].
Qed.

(** ** Pruning *)

Definition off (s : list nat) (e : dft) : bool := negb (existsb (Nat.eqb (dft_id e)) s).
Lemma off_spec : forall s e, off s e = true <-> ~ In (dft_id e) s.
Proof.
  intros s e. unfold off. rewrite negb_true_iff. split.
  - intros H HI. assert (existsb (Nat.eqb (dft_id e)) s = true) by (apply existsb_exists; exists (dft_id e); split; [exact HI|apply Nat.eqb_refl]). congruence.
  - intros H. destruct (existsb (Nat.eqb (dft_id e)) s) eqn:E; [|reflexivity]. apply existsb_exists in E as (z & Hz & EZ). apply Nat.eqb_eq in EZ. subst z. contradiction.
Qed.

Fixpoint dfs_but (x : nat) (r : rose) : list dft :=
  match r with Rose i ks => if Nat.eqb i x then [] else DOpen i :: flat_map (dfs_but x) ks ++ [DClose i] end.

Lemma rose_unique : forall t r, rose_at t r -> forall s, rose_at t s -> rose_id s = rose_id r -> s = r.
Proof.
  intros t r. induction r as [i ks IH] using rose_ind'. intros R [j ms] S E. cbn in E. subst j.
  inversion R as [? ? _ E1 F1]; subst. inversion S as [? ? _ E2 F2]; subst. f_equal.
  rewrite E1 in E2. clear R S E1. revert ms E2 F2. induction ks as [|k ks IHk]; intros [|m ms] E F; cbn in E; try discriminate; [reflexivity|].
  injection E as E0 E. inversion IH; subst. inversion F1; subst. inversion F; subst. f_equal; [apply H1; auto|apply IHk; auto].
Qed.

Lemma below_ids : forall t r j, grown t -> rose_at t r -> (In j (ids r) <-> node_of t j /\ above t (rose_id r) j).
Proof.
  intros t r j G R. pose proof (wf_links _ (built_wf _ (grown_built _ G))) as L. split.
  - apply (ids_above t L r R).
  - intros H. destruct (C39_events t r G R) as [_ EV]. destruct (EV j) as [_ E]. apply E in H. apply (dfs_in r (DOpen j) H).
Qed.

Lemma filter_all : forall A (p : A -> bool) l, (forall e, In e l -> p e = false) -> filter p l = [].
Proof. intros A p. induction l as [|z l IH]; intros H; [reflexivity|]. cbn. rewrite H by (cbn; auto). apply IH. intros e He. apply H. cbn. auto. Qed.
Lemma filter_none : forall A (p : A -> bool) l, (forall e, In e l -> p e = true) -> filter p l = l.
Proof. intros A p. induction l as [|z l IH]; intros H; [reflexivity|]. cbn. rewrite H by (cbn; auto). f_equal. apply IH. intros e He. apply H. cbn. auto. Qed.

Lemma prune : forall t rx, grown t -> rose_at t rx -> forall r, rose_at t r -> ~ above t (rose_id rx) (rose_id r) ->
  filter (off (ids rx)) (dfs r) = dfs_but (rose_id rx) r.
Proof.
  intros t rx G RX. pose proof (wf_links _ (built_wf _ (grown_built _ G))) as L.
  induction r as [i ks IH] using rose_ind'. intros R NA. cbn [rose_id] in NA. cbn [dfs dfs_but].
  destruct (Nat.eqb_spec i (rose_id rx)) as [->|NE]; [destruct NA; constructor|].
  assert (NI : ~ In i (ids rx)) by (intros HI; apply (below_ids t rx i G RX) in HI; tauto).
  assert (P1 : off (ids rx) (DOpen i) = true) by (apply off_spec; exact NI).
  assert (P2 : off (ids rx) (DClose i) = true) by (apply off_spec; exact NI).
  cbn [filter]. rewrite P1, filter_app. cbn [filter]. rewrite P2. f_equal. f_equal.
  inversion R as [? ? Hi E F]; subst.
  assert (PK : forall k, In k ks -> parent t (rose_id k) = Some i) by (intros k Hk; apply (child_parent t L); rewrite E; apply in_map; exact Hk).
  clear E R. induction ks as [|k ks IHk]; [reflexivity|]. inversion IH; subst. inversion F; subst. cbn [flat_map]. rewrite filter_app.
  f_equal; [|apply IHk; auto; intros; apply PK; cbn; auto].
  destruct (Nat.eq_dec (rose_id k) (rose_id rx)) as [EK|NK].
  - assert (k = rx) by (apply (rose_unique t); auto). subst k. rewrite filter_all.
    + destruct rx as [j ms]. cbn. rewrite Nat.eqb_refl. reflexivity.
    + intros e He. apply dfs_in in He. destruct (off (ids rx) e) eqn:EO; [|reflexivity]. apply off_spec in EO. contradiction.
  - apply H1; [assumption|]. intros A. inversion A as [EE|? q HQ AQ]; [congruence|]. rewrite (PK k) in HQ by (cbn; auto). injection HQ as <-. contradiction.
Qed.

Lemma dfs_but_skip : forall x ks, flat_map (dfs_but x) ks = flat_map (dfs_but x) (filter (fun k => negb (Nat.eqb (rose_id k) x)) ks).
Proof.
  intros x. induction ks as [|k ks IH]; [reflexivity|]. cbn [flat_map filter]. destruct (Nat.eqb (rose_id k) x) eqn:E; cbn [negb].
  - rewrite IH. destruct k as [j ms]. cbn in *. rewrite E. reflexivity.
  - cbn [flat_map]. rewrite IH. reflexivity.
Qed.
Lemma without_map : forall x ks, without x (map rose_id ks) = map rose_id (filter (fun k => negb (Nat.eqb (rose_id k) x)) ks).
Proof.
  intros x. induction ks as [|k ks IH]; [reflexivity|]. cbn. unfold without in *. cbn. destruct (Nat.eq_dec x (rose_id k)) as [->|NE].
  - rewrite Nat.eqb_refl. cbn. exact IH.
  - destruct (Nat.eqb_spec (rose_id k) x); [congruence|]. cbn. f_equal. exact IH.
Qed.

Lemma prune_same : forall t t' x, (forall q, node_of t q -> without x (children t' q) = without x (children t q)) ->
  forall r, rose_at t r -> forall r', rose_at t' r' -> rose_id r' = rose_id r -> dfs_but x r' = dfs_but x r.
Proof.
  intros t t' x H. induction r as [i ks IH] using rose_ind'. intros R [j ks'] R' E. cbn in E. subst j. cbn [dfs_but].
  destruct (Nat.eqb i x); [reflexivity|]. f_equal. f_equal.
  inversion R as [? ? Hi E F]; subst. inversion R' as [? ? _ E' F']; subst.
  specialize (H i Hi). rewrite E, E', !without_map in H. rewrite (dfs_but_skip x ks), (dfs_but_skip x ks').
  assert (I2 : Forall (fun k => forall r', rose_at t' r' -> rose_id r' = rose_id k -> dfs_but x r' = dfs_but x k) (filter (fun k => negb (Nat.eqb (rose_id k) x)) ks)).
  { apply Forall_forall. intros k Hk. apply filter_In in Hk as [Hk _]. rewrite Forall_forall in IH, F. apply IH; auto. }
  assert (F2 : Forall (rose_at t') (filter (fun k => negb (Nat.eqb (rose_id k) x)) ks')).
  { apply Forall_forall. intros k Hk. apply filter_In in Hk as [Hk _]. rewrite Forall_forall in F'. auto. }
  revert I2 F2 H. generalize (filter (fun k => negb (Nat.eqb (rose_id k) x)) ks) as l. generalize (filter (fun k => negb (Nat.eqb (rose_id k) x)) ks') as l'.
  clear. induction l' as [|k' l' IH]; intros [|k l] I F E; cbn in E; try discriminate; [reflexivity|]. injection E as E0 E.
  inversion I; subst. inversion F; subst. cbn. rewrite (H1 k') by auto. rewrite (IH l) by auto. reflexivity.
Qed.

(** ** What an edit does to the lists of children *)

Lemma without_put_after : forall y x l, without x (put_after y x l) = without x l.
Proof.
  intros y x. unfold without. induction l as [|z l IH]; [reflexivity|]. cbn. destruct (Nat.eqb z y).
  - cbn. destruct (Nat.eq_dec x x); [|congruence]. reflexivity.
  - cbn. rewrite IH. reflexivity.
Qed.
Lemma without_put_before : forall y x l, without x (put_before y x l) = without x l.
Proof.
  intros y x. unfold without. induction l as [|z l IH]; [reflexivity|]. cbn. destruct (Nat.eqb z y).
  - cbn [remove]. destruct (Nat.eq_dec x x); [|congruence]. reflexivity.
  - cbn. rewrite IH. reflexivity.
Qed.
Lemma without_twice : forall x l, without x (without x l) = without x l.
Proof. intros x l. unfold without. apply notin_remove. apply remove_In. Qed.
Lemma without_app : forall x l m, without x (l ++ m) = without x l ++ without x m.
Proof. intros x l m. unfold without. apply remove_app. Qed.
Lemma without_if : forall x (b : bool), without x (if b then [x] else []) = [].
Proof. intros x [|]; [|reflexivity]. unfold without. cbn. destruct (Nat.eq_dec x x); congruence. Qed.


(** Every edit leaves the order of all children but one node [x] as it was, everywhere.  This
    is the moved node, which keeps its subtree, or else a new node without children. *)
Lemma edit_effect : forall o t t', grown t -> sane o t -> run_top o t = Some t' ->
  exists x, (forall q, without x (children t' q) = without x (children t q)) /\
    (forall q, node_of t q -> node_of t' q) /\
    ((subject o = Some x /\ node_of t x /\ forall r, rose_at t r -> rose_id r = x -> rose_at t' r) \/
     (subject o = None /\ ~ node_of t x /\ forall i, node_of t' i -> node_of t i \/ i = x)).
Proof.
  intros o t t' G SA H. pose proof (grown_built _ G) as B. pose proof (built_wf _ B) as W. pose proof (wf_links _ W) as L.
  assert (FR : ~ node_of t (length (tr_arena t))) by (unfold node_of; lia).
  assert (AT : (exists i, only_attributes t t' i) -> subject o = None -> exists x, (forall q, without x (children t' q) = without x (children t q)) /\
    (forall q, node_of t q -> node_of t' q) /\
    ((subject o = Some x /\ node_of t x /\ forall r, rose_at t r -> rose_id r = x -> rose_at t' r) \/
     (subject o = None /\ ~ node_of t x /\ forall i, node_of t' i -> node_of t i \/ i = x))).
  { intros (i & _ & SN & _ & C & _) E. exists (length (tr_arena t)). split; [intros q; rewrite C; reflexivity|].
    split; [intros q Hq; apply SN; exact Hq|]. right. split; [exact E|]. split; [exact FR|]. intros j Hj. left. apply SN. exact Hj. }
  assert (NW : forall x s, creates t t' s x -> (forall q, without x (children t' q) = without x (children t q)) -> subject o = None -> exists x, (forall q, without x (children t' q) = without x (children t q)) /\
    (forall q, node_of t q -> node_of t' q) /\
    ((subject o = Some x /\ node_of t x /\ forall r, rose_at t r -> rose_id r = x -> rose_at t' r) \/
     (subject o = None /\ ~ node_of t x /\ forall i, node_of t' i -> node_of t i \/ i = x))).
  { intros x s (NX & SN & _) C E. exists x. split; [exact C|]. split; [intros q Hq; apply SN; auto|]. right. split; [exact E|]. split; [exact NX|]. intros i Hi. apply SN. exact Hi. }
  destruct o; cbn [run_top sane subject] in *.
  - injection H as <-. destruct (create_node name t) as [x t1] eqn:C. destruct (create_effect _ _ _ _ W C) as (W1 & EX & LA & R & P & CH & _).
    exists x. cbn [snd]. split; [intros q; rewrite CH; reflexivity|]. unfold node_of. split; [lia|]. right. split; [reflexivity|]. split; lia.
  - destruct (C35_append t t' B x p H) as (SN & _ & C & _ & _ & K). exists x. split.
    { intros q. rewrite C, without_app, without_if, app_nil_r. apply without_twice. }
    split; [intros q Hq; apply SN; exact Hq|]. left. split; [reflexivity|]. split; [|exact (K G)].
    destruct (append_effect t t' L x p H) as (_ & _ & ? & _). unfold append, a_append in H. destruct (used (tr_arena t) p && used (tr_arena t) x) eqn:U; [|discriminate]. apply andb_prop in U as [_ U]. apply used_lt in U. exact U.
  - destruct (C35_prepend t t' B x p H) as (SN & _ & C & _ & _ & K). exists x. split.
    { intros q. rewrite C, without_app, without_if. apply without_twice. }
    split; [intros q Hq; apply SN; exact Hq|]. left. split; [reflexivity|]. split; [|exact (K G)].
    unfold prepend, a_prepend in H. destruct (used (tr_arena t) p && used (tr_arena t) x) eqn:U; [|discriminate]. apply andb_prop in U as [_ U]. apply used_lt in U. exact U.
  - destruct (C35_insert_after t t' B x y H) as (SN & _ & C & _ & _ & K). exists x. split.
    { intros q. rewrite C, without_put_after. apply without_twice. }
    split; [intros q Hq; apply SN; exact Hq|]. left. split; [reflexivity|]. split; [|exact (K G SA)].
    unfold insert_after, a_insert_after in H. destruct (used (tr_arena t) y && used (tr_arena t) x) eqn:U; [|discriminate]. apply andb_prop in U as [_ U]. apply used_lt in U. exact U.
  - destruct (C35_insert_after t t' B x y H) as (SN & _ & C & _ & _ & K). exists x. split.
    { intros q. rewrite C, without_put_after. apply without_twice. }
    split; [intros q Hq; apply SN; exact Hq|]. left. split; [reflexivity|]. split; [|exact (K G SA)].
    unfold insert_before, a_insert_after in H. destruct (used (tr_arena t) y && used (tr_arena t) x) eqn:U; [|discriminate]. apply andb_prop in U as [_ U]. apply used_lt in U. exact U.
  - destruct (append_new p name t) as [[x t1]|] eqn:E; [|discriminate]. injection H as ->. destruct (C35_append_new _ _ _ _ _ B E) as (CR & _ & _ & C).
    apply (NW x name); auto. intros q. rewrite C, without_app, without_if, app_nil_r. reflexivity.
  - destruct (prepend_new p name t) as [[x t1]|] eqn:E; [|discriminate]. injection H as ->. destruct (C35_prepend_new _ _ _ _ _ B E) as (CR & _ & _ & C).
    apply (NW x name); auto. intros q. rewrite C, without_app, without_if. reflexivity.
  - destruct (insert_new_after y name t) as [[x t1]|] eqn:E; [|discriminate]. injection H as ->. destruct (C35_insert_new_after _ _ _ _ _ B E) as (CR & _ & _ & _ & C & _).
    apply (NW x name); auto. intros q. rewrite C. apply without_put_after.
  - destruct (insert_new_before y name t) as [[x t1]|] eqn:E; [|discriminate]. injection H as ->. destruct (C35_insert_new_before _ _ _ _ _ B E) as (CR & _ & _ & _ & C & _).
    apply (NW x name); auto. intros q. rewrite C. apply without_put_before.
  - destruct (C36_detach t x t' B H) as (SN & _ & C & _ & _ & _ & K). exists x. split; [intros q; rewrite C; apply without_twice|].
    split; [intros q Hq; apply SN; exact Hq|]. left. split; [reflexivity|]. split; [|exact (K G)].
    destruct (detach_effect t t' L x H) as (_ & _ & U & _). exact U.
  - apply AT; [|reflexivity]. exists i. apply (C40_append_attribute t t' B i v H).
  - destruct (assign_attribute i k v t) as [[old t1]|] eqn:E; [|discriminate]. injection H as ->. apply AT; [|reflexivity]. exists i. apply (C40_assign_attribute t t' B i k v old E).
  - destruct (take_attributes i t) as [[old t1]|] eqn:E; [|discriminate]. injection H as ->. apply AT; [|reflexivity]. exists i. apply (C40_take_attributes t t' B i old E).
  - apply AT; [|reflexivity]. exists i. apply (C40_set_attributes t t' B i l H).
Qed.

Lemma grown_step : forall o t t', grown t -> sane o t -> run_top o t = Some t' -> grown t'.
Proof. intros. eapply grown_op; eauto. Qed.

(** A subtree inside the moved one is kept whole as well. *)
Lemma inner_rose : forall t t' r, grown t -> rose_at t r -> rose_at t' r -> (forall q, node_of t q -> node_of t' q) ->
  forall s, rose_at t s -> In (rose_id s) (ids r) -> rose_at t' s.
Proof.
  intros t t' r G R R' N s S HI.
  assert (CH : forall r, rose_at t r -> rose_at t' r -> forall q, In q (ids r) -> children t' q = children t q).
  { clear r R R' HI. induction r as [i ks IH] using rose_ind'. intros R R' q Hq. inversion R as [? ? Hi E F]; subst. inversion R' as [? ? _ E' F']; subst.
    destruct Hq as [<-|Hq]; [congruence|]. apply in_flat_map in Hq as (k & Hk & Hq). rewrite Forall_forall in *. apply (IH k); auto. }
  assert (K : forall s, rose_at t s -> (forall q, In q (ids s) -> children t' q = children t q) -> rose_at t' s).
  { clear S HI s. induction s as [i ks IH] using rose_ind'. intros S H. inversion S as [? ? Hi E F]; subst. constructor.
    - auto.
    - rewrite H by (cbn; auto). exact E.
    - rewrite Forall_forall in *. intros k Hk. apply IH; auto. intros q Hq. apply H. cbn. right. apply in_flat_map. eauto. }
  apply K; [exact S|]. intros q Hq. apply (CH r R R').
  apply (below_ids t r q G R). apply (below_ids t s q G S) in Hq as [Uq A]. split; [exact Uq|].
  apply (below_ids t r _ G R) in HI as [_ A0]. clear - A A0. induction A; [exact A0|]. econstructor; eauto.
Qed.

Lemma place_shows : forall t i c pre q post, grown t -> place t i c pre q post -> shows t c q /\ length q < dft_fuel t.
Proof.
  intros t i c pre q post G (r & R & ER & E & S). pose proof (wf_links _ (built_wf _ (grown_built _ G))) as L. pose proof (grown_acyclic _ G) as AC.
  pose proof (dfs_chain t L r R) as CH. pose proof (dfs_nodup r (ids_nodup t L AC r R)) as ND. rewrite E in CH, ND.
  split; [split; [|split]|].
  - apply chain_tail in CH. clear - CH. revert CH. induction post as [|z post IH] using rev_ind; [rewrite app_nil_r; auto|]. rewrite app_assoc. intros H. apply IH. apply (chain_back t _ z). exact H.
  - apply nodup_app_inv in ND as (_ & ND & _). apply nodup_app_inv in ND. apply ND.
  - exact S.
  - pose proof (ids_length t L AC r R) as LE. pose proof (dfs_length r) as DL. rewrite E, !app_length in DL. unfold dft_fuel. lia.
Qed.

Lemma but_notin : forall x r, ~ In x (ids r) -> dfs_but x r = dfs r.
Proof.
  intros x. induction r as [i ks IH] using rose_ind'. intros H. cbn [dfs dfs_but]. destruct (Nat.eqb_spec i x) as [->|_]; [destruct H; cbn; auto|].
  f_equal. f_equal. cbn [ids] in H. assert (H' : ~ In x (flat_map ids ks)) by (intros HI; apply H; cbn; auto). clear H.
  induction ks as [|k ks IHk]; [reflexivity|]. inversion IH; subst. cbn in *. rewrite H1, IHk; auto; intros HI; apply H'; apply in_app_iff; auto.
Qed.
Lemma above_used : forall t x j, node_of t x -> above t x j -> node_of t j.
Proof. intros t x j Hx A. inversion A as [|? p HP _]; subst; [exact Hx|]. exact (lk_range _ _ _ _ HP). Qed.

(** The moved node and the subtree under it, as a list. *)
Lemma moved_ids : forall t rx, grown t -> rose_at t rx -> forall e, off (ids rx) e = true <-> ~ above t (rose_id rx) (dft_id e).
Proof.
  intros t rx G R e. rewrite off_spec, (below_ids t rx _ G R).
  assert (U : node_of t (rose_id rx)) by (destruct R; assumption). split.
  - intros H A. apply H. split; [|exact A]. apply (above_used t _ _ U A).
  - intros H [_ A]. exact (H A).
Qed.

(** ** C76 *)

(** Between edits the traversal is the double-ended queue of the events between its cursors. *)
Definition forwards (k : tcall) : bool := match k with Forward | OpenForward | CloseForward => true | _ => false end.
Lemma deque_segment : forall k q, exists u v, q = u ++ snd (deque_call k q) ++ v /\ (if forwards k then v = [] else u = []).
Proof.
  assert (P : forall q : list dft, exists u, q = u ++ snd (pop_front q)) by (intros [|x q]; [exists []|exists [x]]; reflexivity).
  assert (S : forall (f : dft -> bool) q, exists u, q = u ++ snd (seek_front f q)).
  { intros f. induction q as [|x q [u E]]; [exists []; reflexivity|]. cbn. destruct (f x); [exists [x]; reflexivity|]. exists (x :: u). cbn. rewrite <- E. reflexivity. }
  assert (R : forall q m u : list dft, rev q = u ++ m -> q = rev m ++ rev u) by (intros q m u E; apply (f_equal (@rev dft)) in E; rewrite rev_involutive, rev_app_distr in E; exact E).
  intros k q. destruct k; cbn [deque_call].
  - destruct (P q) as [u E]. exists u, []. rewrite app_nil_r. split; [exact E|reflexivity].
  - unfold pop_back. destruct (P (rev q)) as [u E]. destruct (pop_front (rev q)) as [r m]. cbn [snd] in *. exists [], (rev u). split; [apply R; exact E|reflexivity].
  - destruct (S is_open q) as [u E]. exists u, []. rewrite app_nil_r. split; [exact E|reflexivity].
  - destruct (S is_close q) as [u E]. exists u, []. rewrite app_nil_r. split; [exact E|reflexivity].
  - unfold seek_back. destruct (S is_open (rev q)) as [u E]. destruct (seek_front is_open (rev q)) as [r m]. cbn [snd] in *. exists [], (rev u). split; [apply R; exact E|reflexivity].
  - unfold seek_back. destruct (S is_close (rev q)) as [u E]. destruct (seek_front is_close (rev q)) as [r m]. cbn [snd] in *. exists [], (rev u). split; [apply R; exact E|reflexivity].
Qed.

Theorem C76_calls : forall t i c pre q post k, grown t -> place t i c pre q post ->
  exists c' u v, run_tcall t k c = Some (fst (deque_call k q), c') /\
    q = u ++ snd (deque_call k q) ++ v /\ (if forwards k then v = [] else u = []) /\ place t i c' (pre ++ u) (snd (deque_call k q)) (v ++ post).
Proof.
  intros t i c pre q post k G P. destruct (place_shows _ _ _ _ _ _ G P) as [SH LT].
  destruct (call_shows t k c q SH LT) as (c' & E & _ & _ & S). destruct (deque_segment k q) as (u & v & EQ & FW).
  exists c', u, v. split; [exact E|]. split; [exact EQ|]. split; [exact FW|]. destruct P as (r & R & ER & ED & _).
  exists r. split; [exact R|]. split; [exact ER|]. split; [|exact S]. rewrite ED, EQ at 1. rewrite !app_assoc. reflexivity.
Qed.

(** An edit that does not take a cursor along leaves the traversal in its place: what is
    behind, what is to come and what was returned from the back are as before, but for the
    events of the nodes the edit is about. *)
Theorem C76_edit_partial : forall o t t' i c pre q post, grown t -> place t i c pre q post ->
  sane o t -> undisturbed o t i c -> run_top o t = Some t' ->
  exists pre' q' post', place t' i c pre' q' post' /\
    same_except (concerned o t) pre pre' /\ same_except (concerned o t) q q' /\ same_except (concerned o t) post post'.
Proof.
  intros o t t' i c pre q post G P SA UN H. pose proof (grown_step _ _ _ G SA H) as G'.
  destruct (edit_effect o t t' G SA H) as (x & C & N & K). destruct P as (r & R & ER & ED & S).
  assert (Hi : node_of t i) by (subst i; destruct R; assumption).
  destruct (C39_subtree t' i G' (N i Hi)) as (r' & R' & ER').
  assert (IF : forall e, In e q -> node_of t (dft_id e) /\ above t i (dft_id e)).
  { intros e He. rewrite <- ER. apply (below_ids t r _ G R). apply dfs_in. rewrite ED. rewrite !in_app_iff. auto. }
  assert (CU : forall f b, c = Some (f, b) -> In f q /\ In b q).
  { intros f b ->. destruct S as [HF HB]. split; [destruct (hd_error_some _ _ _ HF) as [k ->]; cbn; auto|].
    destruct (last_opt_some _ _ _ HB) as [k ->]; apply in_app_iff; cbn; auto. }
  assert (FIN : forall p, (forall e, p e = true <-> ~ concerned o t (dft_id e)) -> filter p (dfs r) = filter p (dfs r') ->
    (forall f b, c = Some (f, b) -> ~ concerned o t (dft_id f) /\ ~ concerned o t (dft_id b)) ->
    exists pre' q' post', place t' i c pre' q' post' /\
    same_except (concerned o t) pre pre' /\ same_except (concerned o t) q q' /\ same_except (concerned o t) post post').
  { intros p KP E PC. destruct c as [[f b]|].
    - destruct S as [HF HB]. destruct (PC f b eq_refl) as [PF PB]. apply KP in PF, PB.
      destruct (segment p _ _ _ _ _ _ _ E ED HF HB PF PB) as (pre' & q' & post' & E' & HF' & HB' & E1 & E2 & E3).
      exists pre', q', post'. split; [exists r'; auto|]. split; [|split]; exists p; auto.
    - subst q. rewrite ED in E. cbn [app] in E. rewrite filter_app in E. symmetry in E. destruct (filter_split _ _ _ _ _ E) as (pre' & post' & E' & E1 & E3).
      exists pre', [], post'. split; [exists r'; auto|]. split; [|split]; exists p; auto. }
  destruct K as [(SU & Ux & K)|(SU & Ux & K)].
  - destruct (C39_subtree t x G Ux) as (rx & RX & EX). pose proof (K rx RX EX) as RX'.
    assert (KP : forall e, off (ids rx) e = true <-> ~ concerned o t (dft_id e)) by (intros e; unfold concerned; rewrite SU, <- EX; apply (moved_ids t rx G RX)).
    destruct (in_dec Nat.eq_dec i (ids rx)) as [HI|HI].
    + assert (RR : rose_at t' r) by (apply (inner_rose t t' rx G RX RX' N r R); rewrite ER; exact HI).
      exists pre, q, post. split; [exists r; auto|]. split; [|split]; exists (off (ids rx)); auto.
    + assert (NA : ~ above t x i) by (intros A; apply HI; apply (below_ids t rx i G RX); rewrite EX; auto).
      apply (FIN (off (ids rx)) KP).
      * rewrite (prune t rx G RX r R) by (rewrite EX, ER; exact NA).
        rewrite (prune t' rx G' RX' r' R').
        -- rewrite EX. symmetry. apply (prune_same t t' x); auto. congruence.
        -- rewrite EX, ER'. intros A'. apply HI. apply (below_ids t' rx i G' RX'). rewrite EX. auto.
      * intros f b ->. unfold undisturbed in UN. rewrite SU in UN. unfold concerned. rewrite SU. destruct UN; [contradiction|assumption].
  - assert (KP : forall e, Nat.ltb (dft_id e) (length (tr_arena t)) = true <-> ~ concerned o t (dft_id e)).
    { intros e. unfold concerned. rewrite SU. unfold node_of. rewrite Nat.ltb_lt. lia. }
    apply (FIN (fun e => Nat.ltb (dft_id e) (length (tr_arena t))) KP).
    2: { intros f b E. destruct (CU f b E) as [Ff Fb]. split; apply KP; apply Nat.ltb_lt; apply IF; assumption. }
    assert (XR : ~ In x (ids r)) by (intros HI; apply (below_ids t r x G R) in HI; tauto).
    assert (E0 : dfs_but x r' = dfs r).
    { rewrite <- (but_notin x r XR). apply (prune_same t t' x); auto. congruence. }
    rewrite filter_none by (intros e He; apply Nat.ltb_lt; apply dfs_in in He; apply (below_ids t r _ G R) in He; apply He).
    rewrite <- E0.
    assert (PX : forall s, rose_at t' s -> dfs_but x s = filter (fun e => dft_id e <? length (tr_arena t)) (dfs s)).
    { pose proof (wf_links _ (built_wf _ (grown_built _ G))) as L. pose proof (wf_links _ (built_wf _ (grown_built _ G'))) as L'.
      assert (CX : node_of t' x -> children t' x = []).
      { intros U'. specialize (C x). assert (CE : children t x = []).
        { destruct (children t x) as [|z l] eqn:EC; [reflexivity|]. exfalso. apply Ux. assert (HZ : parent t z = Some x) by (apply (child_parent t L); rewrite EC; cbn; auto). apply (parent_used t L _ _ HZ). }
        rewrite CE in C. destruct (children t' x) as [|z l] eqn:EC; [reflexivity|]. exfalso.
        destruct (Nat.eq_dec z x) as [->|NE].
        - assert (HZ : parent t' x = Some x) by (apply (child_parent t' L'); rewrite EC; cbn; auto). apply (C34_no_cycle_partial t' G' x x HZ). constructor.
        - unfold without in C. cbn in C. destruct (Nat.eq_dec x z); [congruence|discriminate]. }
      induction s as [j ks IH] using rose_ind'. intros RS. inversion RS as [? ? Hj EJ FJ]; subst. cbn [dfs_but dfs].
      destruct (Nat.eqb_spec j x) as [->|NE].
      - rewrite (CX Hj) in EJ. destruct ks; [|discriminate]. cbn [flat_map app filter dft_id]. assert (LF : x <? length (tr_arena t) = false) by (apply Nat.ltb_ge; unfold node_of in Ux; lia). rewrite LF. reflexivity.
      - destruct (K j Hj) as [Hj'|]; [|contradiction]. assert (LT : j <? length (tr_arena t) = true) by (apply Nat.ltb_lt; exact Hj').
        cbn [filter dft_id]. rewrite LT, filter_app. cbn [filter dft_id]. rewrite LT. f_equal. f_equal.
        clear EJ RS CX. induction ks as [|k ks IHk]; [reflexivity|]. inversion IH; subst. inversion FJ; subst. cbn [flat_map]. rewrite filter_app. f_equal; auto. }
    apply PX. exact R'.
Qed.

(** Whole sessions: nothing panics, and the traversal always stands in the subtree as it is. *)
Theorem C76_session_partial : forall l t i c pre q post, grown t -> place t i c pre q post -> fine l i t c ->
  exists rs t' c' pre' q' post', run_steps l t c = Some (rs, t', c') /\ grown t' /\ place t' i c' pre' q' post'.
Proof.
  induction l as [|[k|o] l IH]; intros t i c pre q post G P F; cbn [run_steps fine] in *.
  - do 6 eexists. split; [reflexivity|]. eauto.
  - destruct (C76_calls t i c pre q post k G P) as (c1 & u & v & E & _ & _ & P1). rewrite E in *.
    destruct (IH _ _ _ _ _ _ G P1 F) as (rs & t' & c' & pre' & q' & post' & E' & R). rewrite E'. do 6 eexists. split; [reflexivity|]. exact R.
  - destruct F as (UN & SA & t1 & E & F). rewrite E.
    destruct (C76_edit_partial o t t1 i c pre q post G P SA UN E) as (pre1 & q1 & post1 & P1 & _).
    apply (IH _ _ _ _ _ _ (grown_step _ _ _ G SA E) P1 F).
Qed.

(** ** Adding nodes and changing attributes is always fine *)

Definition adds (s : step) : bool :=
  match s with Call k => plain k | Edit o => match subject o with None => true | Some _ => false end end.
(** What forward and backward calls of the session returned. *)
Fixpoint returned (k : tcall) (l : list step) (rs : list (option dft)) : list dft :=
  match l, rs with
  | Call c :: l', r :: rs' =>
      (match c, k, r with Forward, Forward, Some e | Backward, Backward, Some e => [e] | _, _, _ => [] end) ++ returned k l' rs'
  | Edit _ :: l', _ => returned k l' rs
  | _, _ => []
  end.

Lemma subseq_refl : forall A (l : list A), subseq l l. Proof. induction l; [constructor|apply sub_take; auto]. Qed.
Lemma subseq_app : forall A (a b c d : list A), subseq a b -> subseq c d -> subseq (a ++ c) (b ++ d).
Proof. intros A a b c d H K. induction H; cbn; [exact K|apply sub_skip; auto|apply sub_take; auto]. Qed.
Lemma subseq_filter : forall A (p : A -> bool) l m, subseq l (filter p m) -> subseq l m.
Proof.
  intros A p l m. revert l. induction m as [|z m IH]; intros l H; [exact H|]. cbn in H. destruct (p z); [|apply sub_skip; auto].
  inversion H; subst; [apply sub_skip|apply sub_take]; auto.
Qed.
Lemma filter_finer : forall A (p o : A -> bool) l, (forall e, o e = true -> p e = true) -> filter o (filter p l) = filter o l.
Proof.
  intros A p o l H. induction l as [|z l IH]; [reflexivity|]. cbn. destruct (p z) eqn:E; cbn.
  - rewrite IH. reflexivity.
  - destruct (o z) eqn:EO; [apply H in EO; congruence|exact IH].
Qed.

(** The general step: [old] is any set of nodes of the tree at the start. *)
Lemma growth : forall l t i c pre q post rs t' c' (old : dft -> bool) F B, grown t -> place t i c pre q post ->
  forallb adds l = true -> run_steps l t c = Some (rs, t', c') ->
  (forall e, old e = true -> node_of t (dft_id e)) -> subseq F pre -> subseq (rev B) post ->
  exists pre' q' post', grown t' /\ place t' i c' pre' q' post' /\
    subseq (F ++ returned Forward l rs) pre' /\ subseq (rev (B ++ returned Backward l rs)) post' /\
    filter old (returned Forward l rs ++ q' ++ rev (returned Backward l rs)) = filter old q.
Proof.
  induction l as [|[k|o] l IH]; intros t i c pre q post rs t' c' old F B G P AD RUN OLD SF SB; cbn [run_steps] in RUN; cbn [forallb adds] in AD.
  - injection RUN as <- <- <-. exists pre, q, post. cbn. rewrite !app_nil_r. auto.
  - apply andb_prop in AD as [PK AD]. destruct (C76_calls t i c pre q post k G P) as (c1 & u & v & E & EQ & FW & P1). rewrite E in RUN.
    destruct (run_steps l t c1) as [[[rs1 t1] c2]|] eqn:ER; [|discriminate]. injection RUN as <- <- <-.
    destruct k; try discriminate; cbn [deque_call forwards] in *.
    + subst v. destruct q as [|e q]; cbn [pop_front fst snd] in *.
      * rewrite app_nil_r in EQ. destruct u; [|discriminate]. rewrite app_nil_r in P1.
        destruct (IH t i c1 pre [] post rs1 t1 c2 old F B G P1 AD ER OLD SF SB) as (pre' & q' & post' & R).
        exists pre', q', post'. cbn [returned app]. exact R.
      * rewrite app_nil_r in EQ. change (e :: q) with ([e] ++ q) in EQ. apply app_inv_tail in EQ. subst u. cbn [app] in P1.
        destruct (IH t i c1 (pre ++ [e]) q post rs1 t1 c2 old (F ++ [e]) B G P1 AD ER OLD) as (pre' & q' & post' & R1 & R2 & R3 & R4 & R5); auto.
        { apply subseq_app; [exact SF|apply subseq_refl]. }
        exists pre', q', post'. cbn [returned app]. split; [exact R1|]. split; [exact R2|]. split; [rewrite <- app_assoc in R3; exact R3|]. split; [exact R4|].
        cbn [filter]. rewrite R5. reflexivity.
    + subst u. cbn [app] in EQ. rewrite app_nil_r in P1. unfold pop_back in *. destruct (rev q) as [|e m] eqn:EM; cbn [pop_front fst snd rev] in *.
      * assert (EQ2 : q = []) by (apply (f_equal (@rev dft)) in EM; rewrite rev_involutive in EM; exact EM). cbn [app] in EQ. rewrite <- EQ in P1. clear EQ v. rewrite EQ2 in *. cbn [app] in P1.
        destruct (IH t i c1 pre [] post rs1 t1 c2 old F B G P1 AD ER OLD SF SB) as (pre' & q' & post' & R).
        exists pre', q', post'. cbn [returned app]. exact R.
      * assert (EQ2 : q = rev m ++ [e]) by (apply (f_equal (@rev dft)) in EM; rewrite rev_involutive in EM; exact EM).
        rewrite EQ2 in EQ. apply app_inv_head in EQ. subst v. cbn [app] in P1.
        destruct (IH t i c1 pre (rev m) (e :: post) rs1 t1 c2 old F (B ++ [e]) G P1 AD ER OLD) as (pre' & q' & post' & R1 & R2 & R3 & R4 & R5); auto.
        { rewrite rev_app_distr. cbn. apply sub_take. exact SB. }
        exists pre', q', post'. cbn [returned app]. split; [exact R1|]. split; [exact R2|]. split; [exact R3|]. split; [rewrite <- app_assoc in R4; exact R4|].
        rewrite EQ2. cbn [rev]. rewrite !app_assoc, filter_app, <- (app_assoc (returned Forward l rs1)), R5, filter_app. reflexivity.
  - apply andb_prop in AD as [SU AD]. destruct (subject o) eqn:ES; [discriminate|]. clear SU.
    destruct (run_top o t) as [t1|] eqn:E; [|discriminate].
    assert (SA : sane o t) by (destruct o; cbn in *; try exact I; discriminate).
    assert (UN : undisturbed o t i c) by (unfold undisturbed; rewrite ES; exact I).
    pose proof (grown_step _ _ _ G SA E) as G1.
    destruct (edit_effect o t t1 G SA E) as (_ & _ & N & _).
    destruct (C76_edit_partial o t t1 i c pre q post G P SA UN E) as (pre1 & q1 & post1 & P1 & (k1 & K1 & E1) & (k2 & K2 & E2) & (k3 & K3 & E3)).
    unfold concerned in K1, K2, K3. rewrite ES in K1, K2, K3.
    assert (OL : forall e, In e (pre ++ q ++ post) -> node_of t (dft_id e)).
    { intros e He. destruct P as (r & R & _ & ED & _). rewrite <- ED in He. apply dfs_in in He. apply (below_ids t r _ G R) in He. apply He. }
    destruct (IH t1 i c pre1 q1 post1 rs t' c' old F B G1 P1 AD RUN) as (pre' & q' & post' & R1 & R2 & R3 & R4 & R5).
    + intros e He. auto.
    + apply (subseq_filter _ k1). rewrite E1, filter_none; [exact SF|]. intros e He. apply K1. intros HN. apply HN. apply OL. rewrite !in_app_iff. auto.
    + apply (subseq_filter _ k3). rewrite E3, filter_none; [exact SB|]. intros e He. apply K3. intros HN. apply HN. apply OL. rewrite !in_app_iff. auto.
    + exists pre', q', post'. cbn [returned]. split; [exact R1|]. split; [exact R2|]. split; [exact R3|]. split; [exact R4|]. rewrite R5.
      assert (FN : forall e, old e = true -> k2 e = true) by (intros e He; apply K2; intros HN; apply HN; auto).
      rewrite <- (filter_finer _ k2 old q1 FN), E2. apply filter_finer. exact FN.
Qed.

(** In a session that only adds nodes and changes attributes, forward and backward calls
    return events of the subtree in order, none of them twice; the events of the nodes that
    were in the subtree at the start are all returned or still to come. *)
Theorem C76_growing : forall l t r rs t' c', grown t -> rose_at t r -> forallb adds l = true ->
  run_steps l t (traverse (rose_id r)) = Some (rs, t', c') ->
  exists rest r', rose_at t' r' /\ rose_id r' = rose_id r /\
    subseq (returned Forward l rs ++ rest ++ rev (returned Backward l rs)) (dfs r') /\
    NoDup (returned Forward l rs ++ rest ++ rev (returned Backward l rs)) /\
    same_except (fun j => ~ In j (ids r)) (dfs r) (returned Forward l rs ++ rest ++ rev (returned Backward l rs)) /\
    peek_forward c' = hd_error rest /\ peek_backward c' = last_opt rest.
Proof.
  intros l t r rs t' c' G R AD RUN. set (old := fun e => existsb (Nat.eqb (dft_id e)) (ids r)).
  assert (OS : forall e, old e = true <-> In (dft_id e) (ids r)).
  { intros e. unfold old. rewrite existsb_exists. split; [intros (z & Hz & E); apply Nat.eqb_eq in E; congruence|intros H; exists (dft_id e); split; [exact H|apply Nat.eqb_refl]]. }
  assert (P : place t (rose_id r) (traverse (rose_id r)) [] (dfs r) []).
  { exists r. rewrite app_nil_r. split; [exact R|]. split; [reflexivity|]. split; [reflexivity|]. destruct r as [i ks]. cbn. split; [reflexivity|].
    change (DOpen i :: flat_map dfs ks ++ [DClose i]) with ((DOpen i :: flat_map dfs ks) ++ [DClose i]). apply (last_opt_app dft (DOpen i :: flat_map dfs ks)). }
  destruct (growth l t (rose_id r) _ [] (dfs r) [] rs t' c' old [] [] G P AD RUN) as (pre & q & post & G' & P' & S1 & S2 & E); try constructor.
  { intros e He. apply OS in He. apply (below_ids t r _ G R) in He. apply He. }
  cbn [app] in S1, S2. destruct P' as (r' & R' & ER' & ED & S). exists q, r'. split; [exact R'|]. split; [exact ER'|].
  assert (SS : subseq (returned Forward l rs ++ q ++ rev (returned Backward l rs)) (dfs r')).
  { rewrite ED. apply subseq_app; [exact S1|]. apply subseq_app; [apply subseq_refl|exact S2]. }
  split; [exact SS|]. split; [|split].
  - pose proof (proj1 (C39_events t' r' G' R')) as ND. revert SS ND. generalize (dfs r') as m. generalize (returned Forward l rs ++ q ++ rev (returned Backward l rs)) as k. clear.
    intros k m SS. assert (IN : forall e, In e k -> In e m) by (induction SS; cbn; intros e He; [exact He|right; auto|destruct He; auto]).
    clear IN. induction SS as [|z k m SS IH|z k m SS IH]; intros ND; [constructor| |]; inversion ND; subst; [auto|]. constructor; [|auto].
    intros HI. apply H1. clear - SS HI. induction SS; cbn in *; [exact HI|auto|destruct HI; auto].
  - exists old. split; [|exact E]. intros e. rewrite OS. destruct (in_dec Nat.eq_dec (dft_id e) (ids r)); tauto.
  - destruct c' as [[f b]|]; cbn; [destruct S as [-> ->]; auto|subst q; auto].
Qed.

(** ** Removing a node whose subtree has been passed *)

Lemma dfs_inside : forall t r x, rose_at t r -> In x (ids r) -> exists u v rx, rose_at t rx /\ rose_id rx = x /\ dfs r = u ++ dfs rx ++ v.
Proof.
  intros t r x. induction r as [i ks IH] using rose_ind'. intros R [<-|HI].
  - exists [], [], (Rose i ks). rewrite app_nil_r. auto.
  - apply in_flat_map in HI as (k & Hk & HI). inversion R as [? ? _ _ F]; subst. rewrite Forall_forall in IH, F.
    destruct (IH k Hk (F k Hk) HI) as (u & v & rx & RX & EX & E). destruct (in_split _ _ Hk) as (k1 & k2 & ->).
    exists (DOpen i :: flat_map dfs k1 ++ u), (v ++ flat_map dfs k2 ++ [DClose i]), rx. split; [exact RX|]. split; [exact EX|].
    cbn [dfs]. rewrite flat_map_app. cbn [flat_map]. rewrite E. cbn [app]. rewrite <- !app_assoc. reflexivity.
Qed.
Lemma in_both : forall t rx e, grown t -> rose_at t rx -> In (dft_id e) (ids rx) -> In e (dfs rx).
Proof.
  intros t rx e G R H. destruct (C39_events t rx G R) as [_ EV]. apply (below_ids t rx _ G R) in H. destruct (EV (dft_id e)) as [E1 E2].
  apply E2 in H. destruct e as [j|j]; cbn in *; [exact H|]. apply E1. exact H.
Qed.
Lemma nodup_cut : forall A (a b u v : list A) e, NoDup (a ++ e :: b) -> a ++ e :: b = u ++ e :: v -> a = u /\ b = v.
Proof.
  intros A. induction a as [|z a IH]; intros b u v e ND E.
  - destruct u as [|y u]; [injection E as ->; auto|]. injection E as <- ->. inversion ND; subst. exfalso. apply H1. apply in_app_iff. cbn. auto.
  - destruct u as [|y u]; injection E as -> E.
    + subst. inversion ND; subst. exfalso. apply H1. apply in_app_iff. cbn. auto.
    + inversion ND; subst. destruct (IH b u v e H2 E) as [-> ->]. auto.
Qed.

Lemma passed : forall t r x a b, grown t -> rose_at t r ->
  (dfs r = a ++ DClose x :: b -> forall e, In e b -> ~ above t x (dft_id e)) /\
  (dfs r = a ++ DOpen x :: b -> forall e, In e a -> ~ above t x (dft_id e)).
Proof.
  intros t r x a b G R. pose proof (proj1 (C39_events t r G R)) as ND.
  assert (K : forall d, dft_id d = x -> In d (dfs r) -> exists u v rx, rose_at t rx /\ rose_id rx = x /\ dfs r = u ++ dfs rx ++ v).
  { intros d <- Hd. apply dfs_inside; [exact R|]. apply dfs_in. exact Hd. }
  assert (Q : forall u v rx e, rose_at t rx -> rose_id rx = x -> dfs r = u ++ dfs rx ++ v -> In e u \/ In e v -> ~ above t x (dft_id e)).
  { intros u v rx e RX EX E HE A. assert (Hx : node_of t x) by (subst x; destruct RX; assumption).
    assert (HI : In e (dfs rx)) by (apply (in_both t rx e G RX); apply (below_ids t rx _ G RX); rewrite EX; split; [apply (above_used t x _ Hx A)|exact A]).
    rewrite E in ND. destruct HE as [HE|HE].
    - apply nodup_app_inv in ND as (_ & _ & D). apply (D e HE). apply in_app_iff. auto.
    - apply nodup_app_inv in ND as (_ & ND & _). apply nodup_app_inv in ND as (_ & _ & D). apply (D e HI HE). }
  split; intros E e He.
  - destruct (K (DClose x) eq_refl) as (u & v & rx & RX & EX & E2); [rewrite E; apply in_app_iff; cbn; auto|].
    assert (E3 : exists k, dfs rx = k ++ [DClose x]) by (destruct rx as [j ks]; cbn in EX; subst j; exists (DOpen x :: flat_map dfs ks); reflexivity).
    destruct E3 as [k E3]. pose proof E2 as E4. rewrite E3, <- app_assoc in E4. cbn [app] in E4. rewrite app_assoc in E4.
    rewrite E in ND, E4. destruct (nodup_cut _ _ _ _ _ _ ND E4) as [_ ->]. apply (Q u v rx e RX EX); [congruence|auto].
  - destruct (K (DOpen x) eq_refl) as (u & v & rx & RX & EX & E2); [rewrite E; apply in_app_iff; cbn; auto|].
    assert (E3 : exists k, dfs rx = DOpen x :: k) by (destruct rx as [j ks]; cbn in EX; subst j; exists (flat_map dfs ks ++ [DClose x]); reflexivity).
    destruct E3 as [k E3]. pose proof E2 as E4. rewrite E3 in E4. cbn [app] in E4.
    rewrite E in ND, E4. destruct (nodup_cut _ _ _ _ _ _ ND E4) as [-> _]. apply (Q u v rx e RX EX); [congruence|auto].
Qed.

(** A node may be detached or moved as soon as a forward call has returned its closing, or a
    backward call its opening. *)
Theorem C76_passed : forall t i c pre q post k x r c' o, grown t -> place t i c pre q post ->
  run_tcall t k c = Some (r, c') -> subject o = Some x ->
  (k = Forward /\ r = Some (DClose x)) \/ (k = Backward /\ r = Some (DOpen x)) ->
  undisturbed o t i c'.
Proof.
  intros t i c pre q post k x r c' o G P RUN SU H. destruct (C76_calls t i c pre q post k G P) as (c1 & u & v & E & EQ & FW & P1).
  rewrite RUN in E. injection E as -> <-. unfold undisturbed. rewrite SU. destruct c' as [[f b]|]; [|exact I]. right.
  destruct P as (s & RS & _ & ED & _). destruct P1 as (s1 & _ & _ & _ & HF & HB).
  set (q' := snd (deque_call k q)) in *.
  assert (Ff : In f q') by (destruct (hd_error_some _ _ _ HF) as [m ->]; cbn; auto).
  assert (Fb : In b q') by (destruct (last_opt_some _ _ _ HB) as [m ->]; apply in_app_iff; cbn; auto).
  destruct H as [[-> HR]|[-> HR]]; cbn [deque_call] in *; subst q'.
  - destruct q as [|e q]; [discriminate|]. cbn in HR, Ff, Fb. injection HR as ->.
    pose proof (proj1 (passed t s x pre (q ++ post) G RS) ED) as K. split; apply K; apply in_app_iff; auto.
  - unfold pop_back in *. destruct (rev q) as [|e m] eqn:EM; [discriminate|]. cbn in HR, Ff, Fb. injection HR as ->.
    assert (EQ2 : q = rev m ++ [DOpen x]) by (apply (f_equal (@rev dft)) in EM; rewrite rev_involutive in EM; exact EM).
    rewrite EQ2, <- app_assoc, app_assoc in ED. pose proof (proj2 (passed t s x (pre ++ rev m) post G RS) ED) as K. split; apply K; apply in_app_iff; auto.
Qed.

(** ** Examples, and what goes wrong otherwise *)

Module WalkCases.
  (** The subtree of the root of [Cases.sample]: 0 [1 [4; 3]; 2].  Node 3 is detached when it
      has been closed; a node 6 is added under 2, and a node 7 behind the cursor. *)
  Definition session : list step :=
    [ Call Forward; Call Forward; Call OpenForward; Call OpenForward; Call Forward; Edit (OpDetach 3);
      Edit (OpAppendNew 2 ["x"%byte]); Edit (OpPrependNew 1 ["y"%byte]); Call Forward; Call Forward; Call Backward; Call Forward ].
  Definition growing : list step :=
    [ Call Forward; Call Forward; Edit (OpAppendNew 2 ["x"%byte]); Edit (OpPrependNew 0 ["y"%byte]); Call Backward; Call Forward;
      Edit (OpInsertNewAfter 4 ["z"%byte]); Edit (OpTakeAttributes 3); Call Forward; Call Forward; Call Forward; Call Backward ].
End WalkCases.

(** Checking [fine] by computation. *)
Definition not_above (t : tree) (x j : nat) : bool :=
  match anc_mem (S (length (tr_arena t))) (tr_arena t) x j with Some false => true | _ => false end.
Fixpoint fine_check (l : list step) (t : tree) (c : cursors) : bool :=
  match l with
  | [] => true
  | Call k :: l' => match run_tcall t k c with Some (_, c') => fine_check l' t c' | None => true end
  | Edit o :: l' =>
      match subject o, c with Some x, Some (f, b) => not_above t x (dft_id f) && not_above t x (dft_id b) | _, _ => true end &&
      match o with OpInsertAfter x y | OpInsertBefore x y => not_above t x y | _ => true end &&
      match run_top o t with Some t' => fine_check l' t' c | None => false end
  end.
Lemma fine_checked : forall l i t c, fine_check l t c = true -> fine l i t c.
Proof.
  assert (NA : forall t x j, not_above t x j = true -> ~ above t x j).
  { intros t x j H. unfold not_above in H. destruct (anc_mem _ (tr_arena t) x j) as [[|]|] eqn:E; try discriminate. apply anc_mem_sound in E. intros A. apply E in A. discriminate. }
  induction l as [|[k|o] l IH]; intros i t c H; cbn [fine_check fine] in *; [exact I| |].
  - destruct (run_tcall t k c) as [[r c']|]; [auto|exact I].
  - apply andb_prop in H as [H H3]. apply andb_prop in H as [H1 H2]. split; [|split].
    + unfold undisturbed. destruct (subject o) as [x|]; [|exact I]. destruct c as [[f b]|]; [|exact I]. apply andb_prop in H1 as [A B]. right. auto.
    + destruct o; cbn; auto.
    + destruct (run_top o t) as [t'|]; [|discriminate]. eauto.
Qed.

Example C76_ex_session : grown Cases.sample /\ place Cases.sample 0 (traverse 0) [] [DOpen 0; DOpen 1; DOpen 4; DClose 4; DOpen 3; DClose 3; DClose 1; DOpen 2; DClose 2; DClose 0] [] /\
  fine WalkCases.session 0 Cases.sample (traverse 0) /\
  option_map (fun x => (fst (fst x), snd x)) (run_steps WalkCases.session Cases.sample (traverse 0)) =
    Some ([ Some (DOpen 0); Some (DOpen 1); Some (DOpen 4); Some (DOpen 3); Some (DClose 3); Some (DClose 1); Some (DOpen 2);
            Some (DClose 0); Some (DOpen 6) ], Some (DClose 6, DClose 2)).
Proof.
  split; [exact Cases.sample_grown|]. split; [|split; [apply fine_checked|]; vm_compute; reflexivity].
  exists (Rose 0 [Rose 1 [Rose 4 []; Rose 3 []]; Rose 2 []]). split.
  - repeat (constructor; try (vm_compute; reflexivity); try (vm_compute; lia)).
  - cbn. auto.
Qed.
(** Node 6 is added ahead of both cursors and is visited; node 7 is added behind the forward
    cursor and is not. *)
Example C76_ex_growing : forallb adds WalkCases.growing = true /\
  option_map (fun x => (returned Forward WalkCases.growing (fst (fst x)), returned Backward WalkCases.growing (fst (fst x)), snd x))
    (run_steps WalkCases.growing Cases.sample (traverse 0)) =
    Some ([DOpen 0; DOpen 1; DOpen 4; DClose 4; DOpen 8; DClose 8], [DClose 0; DClose 2], Some (DOpen 3, DClose 6)).
Proof. split; vm_compute; reflexivity. Qed.
(** The closing of 3 has been returned: [C76_passed] applies. *)
Example C76_ex_passed : exists c c' pre q post, place Cases.sample 0 c pre q post /\
  run_tcall Cases.sample Forward c = Some (Some (DClose 3), c') /\ c' = Some (DClose 1, DClose 0).
Proof.
  exists (Some (DClose 3, DClose 0)), (Some (DClose 1, DClose 0)), [DOpen 0; DOpen 1; DOpen 4; DClose 4; DOpen 3], [DClose 3; DClose 1; DOpen 2; DClose 2; DClose 0], [].
  split; [|split; vm_compute; reflexivity]. exists (Rose 0 [Rose 1 [Rose 4 []; Rose 3 []]; Rose 2 []]). split.
  - repeat (constructor; try (vm_compute; reflexivity); try (vm_compute; lia)).
  - cbn. auto.
Qed.

(** The full claim fails: detaching a node when its opening has been returned makes the
    traversal panic at its end. *)
Theorem C76_detach_opened_refuted : exists t i x t', grown t /\ node_of t i /\ x <> i /\
  option_map (fun r => fst (fst r)) (run_steps [Call Forward; Call Forward] t (traverse i)) = Some [Some (DOpen i); Some (DOpen x)] /\
  detach x t = Some t' /\
  run_steps ([Call Forward; Call Forward; Edit (OpDetach x)] ++ repeat (Call Forward) 5) t (traverse i) = None.
Proof.
  exists Cases.sample, 0, 1. eexists. split; [exact Cases.sample_grown|]. split; [vm_compute; lia|]. split; [discriminate|].
  split; [vm_compute; reflexivity|]. split; vm_compute; reflexivity.
Qed.
(** Moving the node of the backward cursor to the front of its siblings makes the forward
    cursor leave the subtree: an event comes twice, and then one of a node outside. *)
Theorem C76_move_refuted : exists t i x l rs t' c, grown t /\ node_of t i /\ node_of t x /\ ~ above t i x /\
  forallb (fun s => match s with Edit (OpPrepend _ p) => Nat.eqb p i | Edit _ => false | Call k => plain k end) l = true /\
  run_steps l t (traverse i) = Some (rs, t', c) /\
  In (DOpen x) (returned Forward l rs) /\ In (DClose i) (returned Forward l rs) /\ In (DClose i) (returned Backward l rs).
Proof.
  exists Cases.sample, 1, 2, [Call Forward; Call Forward; Call Backward; Edit (OpPrepend 3 1); Call Forward; Call Forward; Call Forward]. do 3 eexists.
  split; [exact Cases.sample_grown|]. split; [vm_compute; lia|]. split; [vm_compute; lia|]. split.
  { intros A. assert (E : anc_mem 7 (tr_arena Cases.sample) 1 2 = Some false) by (vm_compute; reflexivity). apply anc_mem_sound in E. apply E in A. discriminate. }
  split; [reflexivity|]. split; [vm_compute; reflexivity|]. vm_compute. tauto.
Qed.
