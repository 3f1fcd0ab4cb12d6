(** The tree operations on well-formed trees. *)
Require Import Coq.Lists.List Coq.Arith.PeanoNat Coq.Bool.Bool Lia.
Require Import Coq.Init.Byte.
Require Import Verif.Base Verif.BaseFacts Verif.Types Verif.Values Verif.Tree Verif.TreeFacts Verif.TreeSpec Verif.TreeLinks.
Import ListNotations.

(** ** Invariant *)

Definition linked (t : tree) := exists sib ch, links (tr_arena t) sib ch.
Record wf (t : tree) : Prop := mkWf {
  wf_links : linked t;
  wf_names : NoDup (tr_names t);
  wf_syms : forall i s, nth_error (tr_arena t) i = Some s -> sl_name s < length (tr_names t);
  wf_root : node_of t (tr_root t)
}.

(** A step that only rearranges links. *)
Record moved (t t' : tree) : Prop := mkMoved {
  mv_keeps : keeps (tr_arena t) (tr_arena t');
  mv_names : tr_names t' = tr_names t;
  mv_root : tr_root t' = tr_root t
}.

Lemma payload_nth : forall a a' i s', payload a' i = payload a i -> nth_error a' i = Some s' ->
  exists s, nth_error a i = Some s /\ sl_name s = sl_name s' /\ sl_attrs s = sl_attrs s'.
Proof.
  intros a a' i s' E N. unfold payload in E. rewrite N in E. cbn in E.
  destruct (nth_error a i) as [s|]; cbn in E; [|discriminate]. injection E as E1 E2. eauto.
Qed.

Lemma moved_wf : forall t t', wf t -> moved t t' -> linked t' -> wf t'.
Proof.
  intros t t' [L N S R] [[KL KP] MN MR] L'. constructor; auto.
  - rewrite MN. exact N.
  - intros i s Hs. destruct (payload_nth _ _ _ _ (KP i) Hs) as (s0 & H0 & <- & _). rewrite MN. eauto.
  - unfold node_of in *. rewrite MR. lia.
Qed.

Lemma moved_nodes : forall t t', moved t t' -> same_nodes t t'.
Proof. intros t t' [[KL _] _ _] i. unfold node_of. rewrite KL. reflexivity. Qed.
Lemma moved_name : forall t t' i, moved t t' -> name t' i = name t i.
Proof.
  intros t t' i [[_ KP] MN _]. unfold name, name_sym. rewrite MN. specialize (KP i). unfold payload in KP.
  destruct (nth_error (tr_arena t') i), (nth_error (tr_arena t) i); cbn in KP |- *; try discriminate; [|reflexivity].
  injection KP as -> _. reflexivity.
Qed.
Lemma moved_attrs : forall t t' i, moved t t' -> attributes t' i = attributes t i.
Proof.
  intros t t' i [[_ KP] MN _]. unfold attributes. specialize (KP i). unfold payload in KP.
  destruct (nth_error (tr_arena t') i), (nth_error (tr_arena t) i); cbn in KP |- *; try discriminate; [|reflexivity].
  injection KP as _ ->. reflexivity.
Qed.
Lemma moved_contents : forall t t', moved t t' -> same_contents t t'.
Proof.
  intros t t' M. split; [apply (mv_root _ _ M)|]. intros i _. split; [apply moved_name|apply moved_attrs]; exact M.
Qed.

(** ** Observers outside the tree *)
Lemma lk_unused : forall f a i, length a <= i -> lk f a i = None.
Proof. intros f a i H. unfold lk. rewrite (proj2 (nth_error_None _ _) H). reflexivity. Qed.
Lemma children_unused : forall t i, ~ node_of t i -> children t i = [].
Proof.
  intros t i H. unfold children, first_child. rewrite lk_unused by (unfold node_of in H; lia). destruct (length _); reflexivity.
Qed.

(** ** Facts on linked trees *)
Section Linked.
Context (t : tree) (LT : linked t).

Lemma child_parent : forall p c, In c (children t p) <-> parent t c = Some p.
Proof.
  destruct LT as (sib & ch & L). intros p c. split.
  - intros H. destruct (Nat.lt_ge_cases p (length (tr_arena t))) as [Hp|Hp].
    + rewrite (links_children _ _ _ _ L Hp) in H. apply (l_down _ _ _ L p c Hp H).
    + rewrite children_unused in H by (unfold node_of; lia). destruct H.
  - intros H. assert (Hc : c < length (tr_arena t)) by (apply (lk_range _ _ _ _ H)).
    destruct (l_up _ _ _ L c p Hc H) as [Hp E]. rewrite (links_children _ _ _ _ L Hp), E. apply (l_self _ _ _ L c Hc).
Qed.
Lemma parent_used : forall c p, parent t c = Some p -> node_of t c /\ node_of t p.
Proof.
  destruct LT as (sib & ch & L). intros c p H. assert (Hc : c < length (tr_arena t)) by (apply (lk_range _ _ _ _ H)).
  destruct (l_up _ _ _ L c p Hc H) as [Hp _]. split; assumption.
Qed.
Lemma children_used : forall p c, In c (children t p) -> node_of t c /\ node_of t p.
Proof. intros p c H. apply child_parent in H. apply parent_used. exact H. Qed.
Lemma children_nodup : forall p, NoDup (children t p).
Proof.
  destruct LT as (sib & ch & L). intros p. destruct (Nat.lt_ge_cases p (length (tr_arena t))) as [Hp|Hp].
  - rewrite (links_children _ _ _ _ L Hp). apply (links_ch_nodup _ _ _ _ L Hp).
  - rewrite children_unused by (unfold node_of; lia). constructor.
Qed.
Lemma ends : forall p, first_child t p = hd_error (children t p) /\ last_child t p = last_opt (children t p).
Proof.
  destruct LT as (sib & ch & L). intros p. destruct (Nat.lt_ge_cases p (length (tr_arena t))) as [Hp|Hp].
  - rewrite (links_children _ _ _ _ L Hp). apply (l_ends _ _ _ L p Hp).
  - rewrite children_unused by (unfold node_of; lia). unfold first_child, last_child. rewrite !lk_unused by exact Hp. auto.
Qed.
Lemma neighbours : forall p l1 c l2, children t p = l1 ++ c :: l2 ->
  previous_sibling t c = last_opt l1 /\ next_sibling t c = hd_error l2.
Proof.
  intros p l1 c l2 E. assert (Hc : In c (children t p)) by (rewrite E, in_app_iff; cbn; auto).
  destruct (children_used _ _ Hc) as [Uc Up]. destruct LT as (sib & ch & L).
  rewrite (links_children _ _ _ _ L Up) in E, Hc. destruct (links_ch_sib _ _ _ _ _ L Up Hc) as (_ & _ & S).
  apply (l_nb _ _ _ L c _ _ Uc). congruence.
Qed.
Lemma sibling_neighbours : forall i l1 c l2, node_of t i -> siblings t i = l1 ++ c :: l2 ->
  previous_sibling t c = last_opt l1 /\ next_sibling t c = hd_error l2.
Proof.
  destruct LT as (sib & ch & L). intros i l1 c l2 Hi E. rewrite (links_siblings _ _ _ _ L Hi) in E.
  assert (Hc : In c (sib i)) by (rewrite E, in_app_iff; cbn; auto).
  destruct (l_same _ _ _ L i c Hi Hc) as (Rc & Ec & _). apply (l_nb _ _ _ L c _ _ Rc). congruence.
Qed.
Lemma siblings_self : forall i, node_of t i -> In i (siblings t i).
Proof. intros. unfold siblings. rewrite in_app_iff. cbn. auto. Qed.
Lemma siblings_nodup : forall i, node_of t i -> NoDup (siblings t i).
Proof.
  destruct LT as (sib & ch & L). intros i Hi. rewrite (links_siblings _ _ _ _ L Hi). apply (l_nodup _ _ _ L i Hi).
Qed.
Lemma siblings_same : forall i j, node_of t i -> In j (siblings t i) -> node_of t j /\ siblings t j = siblings t i /\ parent t j = parent t i.
Proof.
  destruct LT as (sib & ch & L). intros i j Hi Hj. rewrite (links_siblings _ _ _ _ L Hi) in Hj |- *.
  destruct (l_same _ _ _ L i j Hi Hj) as (Rj & Ej & Pj). rewrite (links_siblings _ _ _ _ L Rj). auto.
Qed.
Lemma siblings_children : forall i p, parent t i = Some p -> siblings t i = children t p.
Proof.
  intros i p H. destruct (parent_used _ _ H) as [Hi Hp]. destruct LT as (sib & ch & L).
  rewrite (links_siblings _ _ _ _ L Hi), (links_children _ _ _ _ L Hp). destruct (l_up _ _ _ L i p Hi H) as [_ E]. auto.
Qed.
Lemma next_prev : forall x y, node_of t x -> next_sibling t x = Some y -> node_of t y /\ previous_sibling t y = Some x /\ parent t y = parent t x.
Proof.
  intros x y Hx H. destruct (in_split _ _ (siblings_self x Hx)) as (l1 & l2 & E).
  destruct (sibling_neighbours _ _ _ _ Hx E) as [_ N]. rewrite N in H. destruct (hd_error_some _ _ _ H) as [k ->].
  assert (Hy : In y (siblings t x)) by (rewrite E, in_app_iff; cbn; auto).
  destruct (siblings_same _ _ Hx Hy) as (Uy & _ & Py). split; [exact Uy|]. split; [|exact Py].
  change (l1 ++ x :: y :: k) with (l1 ++ [x] ++ y :: k) in E. rewrite app_assoc in E.
  destruct (sibling_neighbours _ _ _ _ Hx E) as [P _]. rewrite P, last_opt_app. reflexivity.
Qed.
Lemma prev_next : forall x y, node_of t x -> previous_sibling t x = Some y -> node_of t y /\ next_sibling t y = Some x /\ parent t y = parent t x.
Proof.
  intros x y Hx H. destruct (in_split _ _ (siblings_self x Hx)) as (l1 & l2 & E).
  destruct (sibling_neighbours _ _ _ _ Hx E) as [N _]. rewrite N in H. destruct (last_opt_some _ _ _ H) as [k ->].
  assert (Hy : In y (siblings t x)) by (rewrite E, !in_app_iff; cbn; auto).
  destruct (siblings_same _ _ Hx Hy) as (Uy & _ & Py). split; [exact Uy|]. split; [|exact Py].
  rewrite <- app_assoc in E. cbn in E.
  destruct (sibling_neighbours _ _ _ _ Hx E) as [_ P]. exact P.
Qed.
End Linked.

(** ** Effects *)

Lemma lift_some : forall t o t', lift_arena t o = Some t' -> exists a, o = Some a /\ t' = with_arena t a.
Proof. intros t [a|] t' H; [injection H as <-; eauto|discriminate]. Qed.

Lemma with_arena_moved : forall t a, keeps (tr_arena t) a -> moved t (with_arena t a).
Proof. intros. constructor; auto. Qed.

Lemma rm_children : forall t x q, without x (children t q) = rm x (children t q). Proof. reflexivity. Qed.

Section Effects.
Context (t t' : tree) (LT : linked t).

Lemma append_effect : forall x p, append x p t = Some t' ->
  moved t t' /\ linked t' /\
  (node_of t p /\ node_of t x /\ x <> p) /\
  (forall i, parent t' i = if Nat.eqb i x then Some p else parent t i) /\
  (forall q, children t' q = if Nat.eqb q p then without x (children t q) ++ [x] else without x (children t q)) /\
  (forall z, node_of t z -> z <> x -> parent t z <> Some p -> siblings t' z = without x (siblings t z)).
Proof.
  destruct LT as (sib & ch & L). intros x p H. apply lift_some in H as (a & H & ->).
  destruct (a_append_effect _ _ _ _ _ _ L H) as ((Hp & Hx & NE & _) & K & P & sib' & ch' & L' & C & S).
  split; [apply with_arena_moved; exact K|]. split; [exists sib', ch'; exact L'|]. split; [auto|]. split; [exact P|]. split.
  - intros q. destruct (Nat.lt_ge_cases q (length (tr_arena t))) as [Hq|Hq].
    + rewrite (links_children _ _ _ _ L Hq). rewrite (links_children (with_arena t a) sib' ch' q L') by (unfold node_of; cbn; destruct K; lia). apply C.
    + destruct K as [KL _]. rewrite !children_unused by (unfold node_of; cbn; lia). destruct (Nat.eqb_spec q p); [lia|reflexivity].
  - intros z Hz NX NP. rewrite (links_siblings _ _ _ _ L Hz). rewrite (links_siblings (with_arena t a) sib' ch' z L') by (unfold node_of in *; cbn; destruct K; lia).
    rewrite S. destruct (Nat.eqb_spec z x); [contradiction|]. cbn [orb].
    assert (M : memb z (rm x (ch p)) = false); [|rewrite M; reflexivity].
    apply memb_notin. rewrite in_rm. intros [HI _]. destruct (links_ch_sib _ _ _ _ _ L Hp HI) as (_ & HC & _). contradiction.
Qed.

Lemma prepend_effect : forall x p, prepend x p t = Some t' ->
  moved t t' /\ linked t' /\
  (node_of t p /\ node_of t x /\ x <> p) /\
  (forall i, parent t' i = if Nat.eqb i x then Some p else parent t i) /\
  (forall q, children t' q = if Nat.eqb q p then x :: without x (children t q) else without x (children t q)) /\
  (forall z, node_of t z -> z <> x -> parent t z <> Some p -> siblings t' z = without x (siblings t z)).
Proof.
  destruct LT as (sib & ch & L). intros x p H. apply lift_some in H as (a & H & ->).
  destruct (a_prepend_effect _ _ _ _ _ _ L H) as ((Hp & Hx & NE & _) & K & P & sib' & ch' & L' & C & S).
  split; [apply with_arena_moved; exact K|]. split; [exists sib', ch'; exact L'|]. split; [auto|]. split; [exact P|]. split.
  - intros q. destruct (Nat.lt_ge_cases q (length (tr_arena t))) as [Hq|Hq].
    + rewrite (links_children _ _ _ _ L Hq). rewrite (links_children (with_arena t a) sib' ch' q L') by (unfold node_of; cbn; destruct K; lia). apply C.
    + destruct K as [KL _]. rewrite !children_unused by (unfold node_of; cbn; lia). destruct (Nat.eqb_spec q p); [lia|reflexivity].
  - intros z Hz NX NP. rewrite (links_siblings _ _ _ _ L Hz). rewrite (links_siblings (with_arena t a) sib' ch' z L') by (unfold node_of in *; cbn; destruct K; lia).
    rewrite S. destruct (Nat.eqb_spec z x); [contradiction|]. cbn [orb].
    assert (M : memb z (rm x (ch p)) = false); [|rewrite M; reflexivity].
    apply memb_notin. rewrite in_rm. intros [HI _]. destruct (links_ch_sib _ _ _ _ _ L Hp HI) as (_ & HC & _). contradiction.
Qed.

Lemma beside_effect : forall (after : bool) x y,
  lift_arena t (if after then a_insert_after y x (tr_arena t) else a_insert_before y x (tr_arena t)) = Some t' ->
  let put := if after then put_after y x else put_before y x in
  moved t t' /\ linked t' /\
  (node_of t y /\ node_of t x /\ x <> y /\ parent t y <> Some x) /\
  (forall i, parent t' i = if Nat.eqb i x then parent t y else parent t i) /\
  (forall q, children t' q = put (without x (children t q))) /\
  (forall z, node_of t z -> siblings t' z = put (without x (siblings t (if Nat.eqb z x then y else z)))).
Proof.
  destruct LT as (sib & ch & L). intros after x y H put. apply lift_some in H as (a & H & ->).
  destruct (sibling_effect after _ _ _ _ _ _ L H) as ((Hy & Hx & NE & NP) & K & P & sib' & ch' & L' & C & S).
  fold put in C, S.
  split; [apply with_arena_moved; exact K|]. split; [exists sib', ch'; exact L'|]. split; [auto|]. split; [exact P|]. split.
  - intros q. destruct (Nat.lt_ge_cases q (length (tr_arena t))) as [Hq|Hq].
    + rewrite (links_children _ _ _ _ L Hq). rewrite (links_children (with_arena t a) sib' ch' q L') by (unfold node_of; cbn; destruct K; lia). apply C. exact Hq.
    + destruct K as [KL _]. rewrite !children_unused by (unfold node_of; cbn; lia). unfold put. destruct after; reflexivity.
  - intros z Hz. rewrite (links_siblings (with_arena t a) sib' ch' z L') by (unfold node_of in *; cbn; destruct K; lia).
    rewrite S by exact Hz. rewrite (links_siblings _ _ _ _ L); [reflexivity|]. destruct (Nat.eqb z x); assumption.
Qed.

Lemma detach_effect : forall x, detach x t = Some t' ->
  moved t t' /\ linked t' /\ node_of t x /\
  (forall i, parent t' i = if Nat.eqb i x then None else parent t i) /\
  (forall q, children t' q = without x (children t q)) /\
  (forall z, node_of t z -> siblings t' z = if Nat.eqb z x then [x] else without x (siblings t z)).
Proof.
  destruct LT as (sib & ch & L). intros x H. apply lift_some in H as (a & H & ->).
  assert (Hx : x < length (tr_arena t)).
  { unfold a_detach in H. destruct (nth_error (tr_arena t) x) eqn:E; [|discriminate]. apply nth_error_Some. congruence. }
  destruct (detach_links _ _ _ x L Hx) as (a1 & D & LA & Y & P & L'). rewrite H in D. injection D as <-.
  split; [apply with_arena_moved; split; [exact LA|exact Y]|]. split; [eexists; eexists; exact L'|]. split; [exact Hx|]. split; [exact P|]. split.
  - intros q. destruct (Nat.lt_ge_cases q (length (tr_arena t))) as [Hq|Hq].
    + rewrite (links_children _ _ _ _ L Hq). rewrite (links_children (with_arena t a) _ _ q L') by (unfold node_of; cbn; lia). reflexivity.
    + rewrite !children_unused by (unfold node_of; cbn; lia). reflexivity.
  - intros z Hz. rewrite (links_siblings (with_arena t a) _ _ z L') by (unfold node_of in *; cbn; lia). cbv beta.
    destruct (Nat.eqb z x); [reflexivity|]. rewrite (links_siblings _ _ _ _ L Hz). reflexivity.
Qed.
End Effects.

(** ** Creation *)

Lemma sym_of_spec : forall names s i, sym_of names s = Some i -> nth_error names i = Some s.
Proof.
  induction names as [|n names IH]; intros s i H; cbn in H; [discriminate|].
  destruct (bytes_eqb n s) eqn:E.
  - injection H as <-. apply bytes_eqb_eq in E. subst. reflexivity.
  - destruct (sym_of names s) as [j|] eqn:EJ; [|discriminate]. injection H as <-. cbn. auto.
Qed.
Lemma sym_of_none : forall names s, sym_of names s = None -> ~ In s names.
Proof.
  induction names as [|n names IH]; intros s H; cbn in H; [intros []|].
  destruct (bytes_eqb n s) eqn:E; [discriminate|]. destruct (sym_of names s) eqn:EJ; [discriminate|].
  intros [->|HI]; [rewrite bytes_eqb_refl in E; discriminate|]. exact (IH s EJ HI).
Qed.
Lemma sym_of_iff : forall names s i, NoDup names -> (sym_of names s = Some i <-> nth_error names i = Some s).
Proof.
  intros names s i ND. split; [apply sym_of_spec|]. intros H.
  destruct (sym_of names s) as [j|] eqn:E.
  - f_equal. apply sym_of_spec in E. apply (proj1 (NoDup_nth_error names) ND); [apply nth_error_Some; congruence|congruence].
  - exfalso. apply (sym_of_none _ _ E). apply (nth_error_In _ _ H).
Qed.

Lemma nodup_app_one : forall A (l : list A) x, NoDup l -> ~ In x l -> NoDup (l ++ [x]).
Proof.
  induction l as [|y l IH]; intros x ND NI; cbn.
  - repeat constructor. intros [].
  - inversion ND; subst. constructor; [rewrite in_app_iff; cbn in NI |- *; intuition|]. apply IH; [assumption|]. cbn in NI. tauto.
Qed.

Lemma intern_spec : forall names s y names', NoDup names -> intern names s = (y, names') ->
  NoDup names' /\ nth_error names' y = Some s /\ length names <= length names' /\
  (forall i, i < length names -> nth_error names' i = nth_error names i).
Proof.
  intros names s y names' ND H. unfold intern in H. destruct (sym_of names s) as [j|] eqn:E; injection H as <- <-.
  - apply sym_of_spec in E. auto.
  - apply sym_of_none in E. split; [apply nodup_app_one; assumption|]. rewrite app_length. split.
    + rewrite nth_error_app2, Nat.sub_diag by lia. reflexivity.
    + split; [lia|]. intros i Hi. apply nth_error_app1. exact Hi.
Qed.

Lemma create_effect : forall t s x t', wf t -> create_node s t = (x, t') ->
  wf t' /\ x = length (tr_arena t) /\ length (tr_arena t') = S x /\ tr_root t' = tr_root t /\
  (forall i, parent t' i = parent t i) /\ (forall q, children t' q = children t q) /\
  (forall i, node_of t i -> siblings t' i = siblings t i) /\
  (forall i, node_of t i -> name t' i = name t i /\ attributes t' i = attributes t i) /\
  siblings t' x = [x] /\ name t' x = Some s /\ attributes t' x = Some [].
Proof.
  intros t s x t' [(sib & ch & L) ND SY RT] H. unfold create_node in H.
  destruct (intern (tr_names t) s) as [y names'] eqn:E. injection H as <- <-.
  destruct (intern_spec _ _ _ _ ND E) as (ND' & NY & LE & OLD).
  pose proof (create_links _ _ _ y [] L) as L'. set (n := length (tr_arena t)) in *.
  set (t' := mkTree (tr_arena t ++ [fresh_slot y []]) names' (tr_root t)).
  change (tr_arena t ++ [fresh_slot y []]) with (tr_arena t') in L'.
  assert (LA : length (tr_arena t') = S n) by (cbn; rewrite app_length; cbn; unfold n; lia).
  assert (NEW : nth_error (tr_arena t') n = Some (fresh_slot y [])).
  { cbn. rewrite nth_error_app2 by (unfold n; lia). unfold n. rewrite Nat.sub_diag. reflexivity. }
  assert (OLDN : forall i, i < n -> nth_error (tr_arena t') i = nth_error (tr_arena t) i) by (intros; apply nth_error_app1; assumption).
  assert (PAR : forall f, f (fresh_slot y []) = None -> forall i, lk f (tr_arena t') i = lk f (tr_arena t) i).
  { intros f F i. unfold lk. destruct (Nat.lt_trichotomy i n) as [Hi|[->|Hi]].
    - rewrite OLDN by exact Hi. reflexivity.
    - rewrite NEW. replace (nth_error (tr_arena t) n) with (@None slot) by (symmetry; apply nth_error_None; unfold n; lia). exact F.
    - rewrite (proj2 (nth_error_None (tr_arena t') i)) by lia.
      replace (nth_error (tr_arena t) i) with (@None slot) by (symmetry; apply nth_error_None; unfold n in Hi; lia). reflexivity. }
  split; [|split; [reflexivity|split; [exact LA|split; [reflexivity|]]]].
  - constructor.
    + eexists; eexists; exact L'.
    + exact ND'.
    + intros i sl Hs. cbn. destruct (Nat.lt_trichotomy i n) as [Hi|[->|Hi]].
      * rewrite OLDN in Hs by exact Hi. specialize (SY i sl Hs). lia.
      * rewrite NEW in Hs. injection Hs as <-. cbn. apply nth_error_Some. congruence.
      * rewrite (proj2 (nth_error_None (tr_arena t') i)) in Hs by lia. discriminate.
    + unfold node_of in *. cbn [tr_root t']. fold n in RT. lia.
  - split; [intros; unfold parent; apply PAR; reflexivity|]. split.
    { intros q. destruct (Nat.lt_trichotomy q n) as [Hq|[->|Hq]].
      - rewrite (links_children t' _ _ q L') by (unfold node_of; lia). cbv beta. destruct (Nat.eqb_spec q n); [lia|]. symmetry. apply (links_children _ _ _ _ L Hq).
      - rewrite (links_children t' _ _ n L') by (unfold node_of; lia). cbv beta. rewrite Nat.eqb_refl, children_unused; [reflexivity|]. unfold node_of. fold n. lia.
      - rewrite !children_unused; [reflexivity| |]; unfold node_of; fold n; lia. }
    split.
    { intros i Hi. unfold node_of in Hi. fold n in Hi. rewrite (links_siblings t' _ _ i L') by (unfold node_of; lia). cbv beta. destruct (Nat.eqb_spec i n); [lia|]. symmetry. apply (links_siblings _ _ _ _ L). exact Hi. }
    split.
    { intros i Hi. unfold node_of in Hi. fold n in Hi. unfold name, name_sym, attributes. rewrite OLDN by exact Hi.
      split; [|reflexivity]. destruct (nth_error (tr_arena t) i) as [sl|] eqn:ES; [|reflexivity]. cbn. apply OLD. exact (SY _ _ ES). }
    split; [rewrite (links_siblings t' _ _ n L') by (unfold node_of; lia); cbv beta; rewrite Nat.eqb_refl; reflexivity|].
    unfold name, name_sym, attributes. rewrite NEW. cbn. auto.
Qed.

(** ** Attribute editing *)
Lemma attrs_effect : forall t i f, wf t -> (forall s, exists l, f s = set_sattrs l s) ->
  let t' := with_arena t (upd i f (tr_arena t)) in
  wf t' /\ tr_root t' = tr_root t /\ same_nodes t t' /\
  (forall j, parent t' j = parent t j) /\ (forall q, children t' q = children t q) /\
  (forall j, siblings t' j = siblings t j) /\ (forall j, name t' j = name t j) /\
  (forall j, attributes t' j = if Nat.eqb j i then option_map (fun s => sl_attrs (f s)) (nth_error (tr_arena t) i) else attributes t j).
Proof.
  intros t i f [(sib & ch & L) ND SY RT] F t'.
  pose proof (attrs_links _ _ _ i f F L) as L'. change (upd i f (tr_arena t)) with (tr_arena t') in L'.
  assert (LA : length (tr_arena t') = length (tr_arena t)) by (cbn; apply upd_length).
  assert (N : forall j, nth_error (tr_arena t') j = if Nat.eqb j i then option_map f (nth_error (tr_arena t) j) else nth_error (tr_arena t) j)
    by (intros j; cbn; rewrite nth_upd; destruct (Nat.eqb_spec j i); [subst|]; reflexivity).
  assert (O : forall g j, (forall s l, g (set_sattrs l s) = g s) -> lk g (tr_arena t') j = lk g (tr_arena t) j).
  { intros g j Hg. cbn. apply lk_other. intros s. destruct (F s) as [l ->]. apply Hg. }
  assert (W : forall k o, walk k t' o = walk k t o).
  { induction k as [|k IH]; intros [o|]; cbn; auto. rewrite IH. unfold next_sibling. rewrite (O sl_next) by reflexivity. reflexivity. }
  assert (WB : forall k o, walk_back k t' o = walk_back k t o).
  { induction k as [|k IH]; intros [o|]; cbn; auto. rewrite IH. unfold previous_sibling. rewrite (O sl_prev) by reflexivity. reflexivity. }
  split; [constructor|].
  - exists sib, ch. exact L'.
  - exact ND.
  - intros j s Hs. rewrite N in Hs. destruct (Nat.eqb j i).
    + destruct (nth_error (tr_arena t) j) as [s0|] eqn:E0; [|discriminate]. injection Hs as <-. destruct (F s0) as [l ->]. exact (SY _ _ E0).
    + exact (SY _ _ Hs).
  - unfold node_of in *. rewrite LA. exact RT.
  - split; [reflexivity|]. split; [intros j; unfold node_of; rewrite LA; reflexivity|].
    split; [intros; unfold parent; rewrite (O sl_parent) by reflexivity; reflexivity|].
    split; [intros q; unfold children, first_child; rewrite (O sl_first), LA, W by reflexivity; reflexivity|].
    split; [intros j; unfold siblings, previous_sibling, next_sibling; rewrite (O sl_prev), (O sl_next), LA, W, WB by reflexivity; reflexivity|].
    split.
    + intros j. unfold name, name_sym. rewrite N. destruct (Nat.eqb j i); [|reflexivity].
      destruct (nth_error (tr_arena t) j) as [s0|]; [|reflexivity]. cbn. destruct (F s0) as [l ->]. reflexivity.
    + intros j. unfold attributes. rewrite N. destruct (Nat.eqb_spec j i); [subst|reflexivity].
      destruct (nth_error (tr_arena t) i); reflexivity.
Qed.
