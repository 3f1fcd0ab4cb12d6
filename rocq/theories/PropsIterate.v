(** C83: iterating over the children of a node. *)
Require Import Coq.Lists.List Coq.Arith.PeanoNat Coq.Bool.Bool Lia.
Require Import Coq.Init.Byte.
Require Import Verif.Base Verif.BaseFacts Verif.Types Verif.Tree Verif.TreeFacts Verif.TreeSpec Verif.TreeLinks Verif.TreeOps Verif.TreePaths Verif.PropsTree Verif.TreeIter.
Import ListNotations.
Local Open Scope nat_scope.

(** [l] are the children of [i], from the first to the last. *)
Record kids (t : tree) (i : nat) (l : list nat) : Prop := mkKids {
  kd_once : NoDup l;
  kd_all : forall c, In c l <-> parent t c = Some i;
  kd_order : forall k c, nth_error l k = Some c ->
    next_sibling t c = nth_error l (S k) /\ (k = 0 <-> previous_sibling t c = None)
}.
(** The results of [n] calls of an iterator over [l]. *)
Definition results (l : list nat) (n : nat) : list (option nat) := map (nth_error l) (seq 0 n).

Section Steps.
Context (t : tree) (L : linked t).

Lemma iterate_results : forall S (next : S -> option (option nat * S)) (shows : S -> list nat -> Prop),
  (forall it l, shows it l -> exists it', next it = Some (hd_error l, it') /\ shows it' (tl l)) ->
  forall n it l, shows it l -> exists it', iterate next n it = Some (results l n, it').
Proof.
  intros S next shows H. induction n as [|n IH]; intros it l HS; [exists it; reflexivity|].
  destruct (H it l HS) as (it1 & E & H1). destruct (IH it1 (tl l) H1) as (it2 & E2). exists it2. cbn [iterate]. rewrite E, E2.
  unfold results. cbn [seq map]. rewrite <- seq_shift, map_map. destruct l as [|c l]; cbn [hd_error tl nth_error]; [|reflexivity].
  do 3 f_equal. apply map_ext. intros [|k]; reflexivity.
Qed.

Definition ch_shows (i : nat) (it : ch_iter) (l : list nat) : Prop := it = hd_error l /\ exists l1, children t i = l1 ++ l.
Lemma ch_step : forall i it l, ch_shows i it l -> exists it', ch_next t it = Some (hd_error l, it') /\ ch_shows i it' (tl l).
Proof.
  intros i it l [-> (l1 & E)]. destruct l as [|c l]; [exists None; split; [reflexivity|split; [reflexivity|eauto]]|].
  exists (next_sibling t c). cbn [ch_next hd_error tl]. assert (HC : In c (children t i)) by (rewrite E, in_app_iff; cbn; auto).
  destruct (children_used t L _ _ HC) as [UC _]. unfold to_handle, used. apply Nat.ltb_lt in UC. rewrite UC. split; [reflexivity|].
  destruct (neighbours t L _ _ _ _ E) as [_ N]. split; [exact N|]. exists (l1 ++ [c]). rewrite <- app_assoc. exact E.
Qed.

Lemma chn_find_spec : forall i y l it fuel, ch_shows i it l -> length l < fuel ->
  exists it', chn_find fuel t y it = Some (hd_error (filter (fun c => onat_eqb (name_sym t c) (Some y)) l), it') /\
    exists l', ch_shows i it' l' /\ filter (fun c => onat_eqb (name_sym t c) (Some y)) l' = tl (filter (fun c => onat_eqb (name_sym t c) (Some y)) l).
Proof.
  intros i y. induction l as [|c l IH]; intros it fuel HS HF; (destruct fuel as [|fuel]; [cbn in HF; lia|]); destruct (ch_step _ _ _ HS) as (it1 & E & H1); cbn [chn_find]; rewrite E.
  - exists it1. split; [reflexivity|]. exists []. split; [exact H1|reflexivity].
  - cbn [hd_error filter tl] in *. destruct (onat_eqb (name_sym t c) (Some y)).
    + exists it1. split; [reflexivity|]. exists l. split; [exact H1|reflexivity].
    + apply IH; [exact H1|cbn in HF; lia].
Qed.
End Steps.

Lemma kids_children : forall t i, linked t -> kids t i (children t i).
Proof.
  intros t i L. constructor.
  - apply children_nodup. exact L.
  - intros c. apply child_parent. exact L.
  - intros k c H. destruct (nth_error_split _ _ H) as (l1 & l2 & E & LE). destruct (neighbours t L _ _ _ _ E) as [P N].
    rewrite N, E, P. subst k. split.
    + rewrite nth_error_app2 by lia. replace (S (length l1) - length l1) with 1 by lia. destruct l2; reflexivity.
    + split; intros H0; [destruct l1; [reflexivity|discriminate]|apply last_opt_none in H0; subst; reflexivity].
Qed.

(** In any tree a client can build, cycles included: the [n]-th call of [next] on the iterator over
    the children of a node gives the [n]-th child, and on the iterator over the children with a name
    the [n]-th child with that name; after them every call gives [None]; no call panics. *)
Theorem C83_children : forall t i, built t -> node_of t i -> exists l, kids t i l /\
  (forall n, exists it, iterate (ch_next t) n (ch_start t i) = Some (results l n, it)) /\
  (forall s n, exists it, iterate (chn_next t) n (chn_start t i s) = Some (results (filter (named t s) l) n, it)).
Proof.
  intros t i B Hi. pose proof (built_wf _ B) as W. pose proof (wf_links _ W) as L. exists (children t i). split; [apply kids_children; exact L|].
  assert (S0 : ch_shows t i (ch_start t i) (children t i)).
  { destruct (ends t L i) as [E _]. split; [exact E|]. exists []. reflexivity. }
  split.
  - intros n. apply (iterate_results _ _ (ch_shows t i) (ch_step t L i)). exact S0.
  - intros s n. destruct (C37_lookup t i s B) as [EN _]. rewrite <- EN. clear EN. unfold children_by_name, chn_start.
    destruct (sym_of (tr_names t) s) as [y|].
    + apply (iterate_results _ _ (fun it l => chn_sym it = Some y /\
        exists l0, ch_shows t i (chn_iter_of it) l0 /\ filter (fun c => onat_eqb (name_sym t c) (Some y)) l0 = l)).
      * intros [sy it] l (E1 & l0 & E2 & E3). cbn [chn_sym chn_iter_of] in *. subst sy. unfold chn_next. cbn [chn_sym chn_iter_of].
        destruct (chn_find_spec t L i y l0 it (S (length (tr_arena t))) E2) as (it1 & F & l1 & S1 & F1).
        { destruct E2 as [_ (k & EK)]. assert (LE : length (children t i) <= length (tr_arena t)).
          { apply nodup_bounded; [apply children_nodup; exact L|]. intros j Hj. apply (children_used t L _ _ Hj). }
          rewrite EK, app_length in LE. lia. }
        rewrite F, E3 in *. eexists. split; [reflexivity|]. split; [reflexivity|]. exists l1. cbn. auto.
      * split; [reflexivity|]. exists (children t i). auto.
    + apply (iterate_results _ _ (fun it l => chn_sym it = None /\ l = [])); [|auto].
      intros [sy it] l [E1 ->]. cbn in E1. subst sy. eexists. split; [reflexivity|auto].
Qed.

(** [first_child_by_name] is what the first call gives. *)
Theorem C83_first : forall t i s, built t -> node_of t i ->
  exists it, chn_next t (chn_start t i s) = Some (first_child_by_name t i s, it).
Proof.
  intros t i s B Hi. pose proof (wf_links _ (built_wf _ B)) as L. destruct (C37_lookup t i s B) as [EN _].
  unfold first_child_by_name, children_by_name, chn_next, chn_start. cbn [chn_sym chn_iter_of].
  destruct (sym_of (tr_names t) s) as [y|]; [|eexists; reflexivity].
  destruct (chn_find_spec t L i y (children t i) (ch_start t i) (S (length (tr_arena t)))) as (it & -> & _).
  - destruct (ends t L i) as [E _]. split; [exact E|]. exists []. reflexivity.
  - assert (LE : length (children t i) <= length (tr_arena t)); [|lia].
    apply nodup_bounded; [apply children_nodup; exact L|]. intros j Hj. apply (children_used t L _ _ Hj).
  - eexists. reflexivity.
Qed.

(** ** Concrete cases *)
Module IterCases.
Example children_ex : built Cases.sample /\ node_of Cases.sample 1 /\ kids Cases.sample 1 [4; 3] /\
  option_map fst (iterate (ch_next Cases.sample) 4 (ch_start Cases.sample 1)) = Some [Some 4; Some 3; None; None] /\
  option_map fst (iterate (chn_next Cases.sample) 2 (chn_start Cases.sample 1 ["c"%byte])) = Some [Some 3; None] /\
  option_map fst (iterate (chn_next Cases.sample) 2 (chn_start Cases.sample 1 ["x"%byte])) = Some [None; None].
Proof.
  split; [exact Cases.sample_built|]. split; [vm_compute; lia|]. split; [exact (kids_children Cases.sample 1 (wf_links _ (built_wf _ Cases.sample_built)))|].
  repeat split.
Qed.
(** In the tree with a cycle: node 1, an ancestor of 2, was inserted after 3, a child of 2. *)
Example loop_ex : built Cases.looped /\ node_of Cases.looped 2 /\
  option_map fst (iterate (ch_next Cases.looped) 3 (ch_start Cases.looped 2)) = Some [Some 3; Some 1; None].
Proof. split; [exact Cases.looped_built|]. split; [vm_compute; lia|]. vm_compute. reflexivity. Qed.
End IterCases.

Print Assumptions C83_children.
Print Assumptions C83_first.
