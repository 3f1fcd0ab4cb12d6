(** C77: comparing trees with [==]. *)
Require Import Coq.Lists.List Coq.Arith.PeanoNat Coq.NArith.NArith Coq.Bool.Bool Lia.
Require Import Coq.Init.Byte.
Require Import Verif.Base Verif.BaseFacts Verif.Types Verif.Values Verif.Tree Verif.TreeFacts Verif.TreeSpec Verif.TreeLinks Verif.TreeOps Verif.TreePaths.
Require Import Verif.PropsTree Verif.PropsTraverse Verif.PropsTreeEq Verif.PropsValue Verif.TreeCmp.
Import ListNotations.

(** ** Specification *)

(** Documents with the same shape and names, and attributes equal as numbers. *)
Inductive equal_docs : dnode -> dnode -> Prop :=
| equal_docs_i : forall nm ats bts ks ms, Forall2 equal_values ats bts -> Forall2 equal_docs ks ms ->
    equal_docs (DNode nm ats ks) (DNode nm bts ms).
(** Floats are bit patterns of their width (true of all trees of the program). *)
Definition tree_floats_ok (t : tree) : Prop := forall i l, attributes t i = Some l -> Forall floats_ok l.
(** The value an operation puts into the tree. *)
Definition values_of (o : top) : list aval :=
  match o with OpAppendAttribute _ v | OpAssignAttribute _ _ v => [v] | OpSetAttributes _ l => l | _ => [] end.

(** ** Slots *)

Definition alike (R : aval -> aval -> Prop) (a b : slot) : Prop :=
  sl_parent a = sl_parent b /\ sl_prev a = sl_prev b /\ sl_next a = sl_next b /\ sl_first a = sl_first b /\ sl_last a = sl_last b /\
  sl_name a = sl_name b /\ Forall2 R (sl_attrs a) (sl_attrs b).
Definition same_tree (R : aval -> aval -> Prop) (t u : tree) : Prop :=
  Forall2 (alike R) (tr_arena t) (tr_arena u) /\ tr_names t = tr_names u /\ tr_root t = tr_root u.

Lemma onat_eqb_eq : forall a b, onat_eqb a b = true <-> a = b.
Proof.
  intros [a|] [b|]; cbn; try (split; congruence). rewrite Nat.eqb_eq. split; congruence.
Qed.
Lemma list_eqb_F2 : forall A (eqb : A -> A -> bool) a b, list_eqb eqb a b = true <-> Forall2 (fun x y => eqb x y = true) a b.
Proof.
  intros A eqb. induction a as [|x a IH]; intros [|y b]; cbn [list_eqb]; try (split; [discriminate|intros H; inversion H]).
  - split; [constructor|reflexivity].
  - rewrite andb_true_iff, IH. split; [intros [? ?]; constructor; auto|intros H; inversion H; auto].
Qed.
Lemma F2_iff : forall A (P Q : A -> A -> Prop) a b, (forall x y, P x y <-> Q x y) -> (Forall2 P a b <-> Forall2 Q a b).
Proof. intros A P Q a b H. split; intros F; induction F; constructor; auto; apply H; auto. Qed.
Definition veq (a b : aval) : Prop := aval_eqb a b = true.
Lemma slot_eqb_iff : forall a b, slot_eqb a b = true <-> alike veq a b.
Proof.
  intros a b. unfold slot_eqb, alike. rewrite !andb_true_iff, !onat_eqb_eq, Nat.eqb_eq, list_eqb_F2. unfold veq. tauto.
Qed.
Lemma tree_eqb_iff : forall t u, tree_eqb t u = true <-> same_tree veq t u.
Proof.
  intros t u. unfold tree_eqb, same_tree. rewrite !andb_true_iff, Nat.eqb_eq, list_eqb_F2, (F2_iff _ _ _ _ _ slot_eqb_iff).
  rewrite (list_eqb_same _ bytes_eqb bytes_eqb_eq). tauto.
Qed.

(** ** Observers *)

Section Like.
Context (R : aval -> aval -> Prop).

Lemma F2_nth : forall A (P : A -> A -> Prop) a b, Forall2 P a b -> forall i,
  match nth_error a i, nth_error b i with Some x, Some y => P x y | None, None => True | _, _ => False end.
Proof. intros A P a b F. induction F; intros [|i]; cbn; [exact I|exact I|assumption|apply IHF]. Qed.
Lemma F2_len : forall A (P : A -> A -> Prop) a b, Forall2 P a b -> length a = length b.
Proof. intros A P a b F. induction F; cbn; auto. Qed.

Definition link (f : slot -> option nat) : Prop := forall a b, alike R a b -> f a = f b.
Lemma link_parent : link sl_parent. Proof. intros a b H. apply H. Qed.
Lemma link_prev : link sl_prev. Proof. intros a b H. apply H. Qed.
Lemma link_next : link sl_next. Proof. intros a b H. apply H. Qed.
Lemma link_first : link sl_first. Proof. intros a b H. apply H. Qed.
Lemma link_last : link sl_last. Proof. intros a b H. apply H. Qed.

Lemma lk_like : forall f a b, link f -> Forall2 (alike R) a b -> forall i, lk f a i = lk f b i.
Proof.
  intros f a b L F i. unfold lk. pose proof (F2_nth _ _ _ _ F i) as H. destruct (nth_error a i), (nth_error b i); auto; contradiction.
Qed.
Lemma upd_like : forall i (f g : slot -> slot) a b, (forall x y, alike R x y -> alike R (f x) (g y)) -> Forall2 (alike R) a b -> Forall2 (alike R) (upd i f a) (upd i g b).
Proof. intros i f g a b H F. revert i. induction F; intros [|i]; cbn; constructor; auto. Qed.
Lemma set_like : forall x y, alike R x y ->
  (forall v, alike R (set_parent v x) (set_parent v y)) /\ (forall v, alike R (set_prev v x) (set_prev v y)) /\
  (forall v, alike R (set_next v x) (set_next v y)) /\ (forall f l, alike R (set_ends f l x) (set_ends f l y)) /\
  (forall v w, Forall2 R v w -> alike R (set_sattrs v x) (set_sattrs w y)).
Proof. intros x y (H1 & H2 & H3 & H4 & H5 & H6 & H7). unfold alike. cbn. repeat split; auto. Qed.

Definition olike (a b : option arena) : Prop :=
  match a, b with Some x, Some y => Forall2 (alike R) x y | None, None => True | _, _ => False end.

Lemma connect_like : forall p q n a b, Forall2 (alike R) a b -> Forall2 (alike R) (connect_neighbors p q n a) (connect_neighbors p q n b).
Proof.
  intros p q n a b F. unfold connect_neighbors.
  assert (F1 : match p with Some p0 => lk sl_first a p0 | None => None end = match p with Some p0 => lk sl_first b p0 | None => None end) by (destruct p; [apply lk_like; auto using link_first|reflexivity]).
  assert (F2 : match p with Some p0 => lk sl_last a p0 | None => None end = match p with Some p0 => lk sl_last b p0 | None => None end) by (destruct p; [apply lk_like; auto using link_last|reflexivity]).
  rewrite F1, F2. clear F1 F2.
  assert (G1 : Forall2 (alike R) (match q with Some q0 => upd q0 (set_next n) a | None => a end) (match q with Some q0 => upd q0 (set_next n) b | None => b end)).
  { destruct q; [|exact F]. apply upd_like; [|exact F]. intros x y H. apply (set_like x y H). }
  set (a1 := match q with Some q0 => upd q0 (set_next n) a | None => a end) in *. set (b1 := match q with Some q0 => upd q0 (set_next n) b | None => b end) in *.
  assert (G2 : Forall2 (alike R) (match n with Some q0 => upd q0 (set_prev q) a1 | None => a1 end) (match n with Some q0 => upd q0 (set_prev q) b1 | None => b1 end)).
  { destruct n; [|exact G1]. apply upd_like; [|exact G1]. intros x y H. apply (set_like x y H). }
  destruct p; [|exact G2]. apply upd_like; [|exact G2]. intros x y H. apply (set_like x y H).
Qed.

Lemma detach_like : forall x a b, Forall2 (alike R) a b -> olike (a_detach x a) (a_detach x b).
Proof.
  intros x a b F. unfold a_detach. pose proof (F2_nth _ _ _ _ F x) as H. destruct (nth_error a x) as [s|], (nth_error b x) as [s'|]; try contradiction; [|exact I].
  cbn. rewrite (link_parent _ _ H), (link_prev _ _ H), (link_next _ _ H). apply upd_like; [intros y z K; apply (set_like y z K)|].
  apply connect_like. apply upd_like; [|exact F]. intros y z K. destruct (set_like y z K) as (_ & _ & K3 & _). destruct (set_like _ _ (K3 None)) as (_ & K2 & _). apply K2.
Qed.
Lemma insert_like : forall x p q n a b, Forall2 (alike R) a b -> olike (insert_with_neighbors x p q n a) (insert_with_neighbors x p q n b).
Proof.
  intros x p q n a b F. unfold insert_with_neighbors. destruct (onat_eqb q (Some x) || onat_eqb n (Some x)); [exact I|]. destruct (onat_eqb p (Some x)); [exact I|].
  cbn. apply connect_like, connect_like. apply upd_like; [intros y z K; apply (set_like y z K)|exact F].
Qed.
Lemma used_like : forall a b i, Forall2 (alike R) a b -> used a i = used b i.
Proof. intros a b i F. unfold used. rewrite (F2_len _ _ _ _ F). reflexivity. Qed.
Lemma anc_like : forall fuel a b x p, Forall2 (alike R) a b -> anc_mem fuel a x p = anc_mem fuel b x p.
Proof.
  induction fuel as [|fuel IH]; intros a b x p F; [reflexivity|]. cbn. destruct (Nat.eqb p x); [reflexivity|].
  rewrite (lk_like sl_parent a b link_parent F). destruct (lk sl_parent b p); auto.
Qed.

Lemma append_like : forall p x a b, Forall2 (alike R) a b -> olike (a_append p x a) (a_append p x b).
Proof.
  intros p x a b F. unfold a_append. rewrite (used_like _ _ p F), (used_like _ _ x F), (F2_len _ _ _ _ F), (anc_like _ _ _ x p F).
  destruct (negb _); [exact I|]. destruct (Nat.eqb x p); [exact I|]. destruct (anc_mem _ b x p) as [[|]|]; try exact I.
  pose proof (detach_like x a b F) as D. destruct (a_detach x a), (a_detach x b); try contradiction; [|exact I].
  cbn in D. rewrite (lk_like _ _ _ link_last D). apply insert_like. exact D.
Qed.
Lemma prepend_like : forall p x a b, Forall2 (alike R) a b -> olike (a_prepend p x a) (a_prepend p x b).
Proof.
  intros p x a b F. unfold a_prepend. rewrite (used_like _ _ p F), (used_like _ _ x F), (F2_len _ _ _ _ F), (anc_like _ _ _ x p F).
  destruct (negb _); [exact I|]. destruct (Nat.eqb x p); [exact I|]. destruct (anc_mem _ b x p) as [[|]|]; try exact I.
  pose proof (detach_like x a b F) as D. destruct (a_detach x a), (a_detach x b); try contradiction; [|exact I].
  cbn in D. rewrite (lk_like _ _ _ link_first D). apply insert_like. exact D.
Qed.
Lemma after_like : forall y x a b, Forall2 (alike R) a b -> olike (a_insert_after y x a) (a_insert_after y x b).
Proof.
  intros p x a b F. unfold a_insert_after. rewrite (used_like _ _ p F), (used_like _ _ x F).
  destruct (negb _); [exact I|]. destruct (Nat.eqb x p); [exact I|].
  pose proof (detach_like x a b F) as D. destruct (a_detach x a), (a_detach x b); try contradiction; [|exact I].
  cbn in D. rewrite (lk_like _ _ _ link_parent D), (lk_like _ _ _ link_next D). apply insert_like. exact D.
Qed.
Lemma before_like : forall y x a b, Forall2 (alike R) a b -> olike (a_insert_before y x a) (a_insert_before y x b).
Proof.
  intros p x a b F. unfold a_insert_before. rewrite (used_like _ _ p F), (used_like _ _ x F).
  destruct (negb _); [exact I|]. destruct (Nat.eqb x p); [exact I|].
  pose proof (detach_like x a b F) as D. destruct (a_detach x a), (a_detach x b); try contradiction; [|exact I].
  cbn in D. rewrite (lk_like _ _ _ link_parent D), (lk_like _ _ _ link_prev D). apply insert_like. exact D.
Qed.

Definition tlike (a b : option tree) : Prop :=
  match a, b with Some x, Some y => same_tree R x y | None, None => True | _, _ => False end.
Lemma lift_like : forall t u a b, same_tree R t u -> olike a b -> tlike (lift_arena t a) (lift_arena u b).
Proof. intros t u [a|] [b|] (_ & N & RT) O; cbn in *; auto. split; [exact O|]. auto. Qed.
Lemma lift_new : forall (x : nat) t u a b, same_tree R t u -> olike a b ->
  tlike (option_map snd (option_map (pair x) (lift_arena t a))) (option_map snd (option_map (pair x) (lift_arena u b))).
Proof. intros x t u [a|] [b|] (_ & N & RT) O; cbn in *; auto. split; [exact O|]. auto. Qed.
Lemma create_like : forall s t u, same_tree R t u -> fst (create_node s t) = fst (create_node s u) /\ same_tree R (snd (create_node s t)) (snd (create_node s u)).
Proof.
  intros s t u (F & N & RT). unfold create_node. rewrite N. destruct (intern (tr_names u) s) as [y names]. cbn. split; [apply (F2_len _ _ _ _ F)|].
  split; [|auto]. apply Forall2_app; [exact F|]. constructor; [|constructor]. unfold alike. cbn. repeat split. constructor.
Qed.
Lemma F2_upd : forall k v l m, R v v -> Forall2 R l m -> Forall2 R (upd k (fun _ => v) l) (upd k (fun _ => v) m).
Proof. intros k v l m V F. revert k. induction F; intros [|k]; cbn; constructor; auto. Qed.

Lemma op_like : forall o t u, same_tree R t u -> Forall (fun v => R v v) (values_of o) -> tlike (run_top o t) (run_top o u).
Proof.
  intros o t u S V. pose proof S as (F & N & RT). destruct o; cbn [run_top values_of] in *.
  - apply (create_like name t u S).
  - apply lift_like; auto. apply append_like; auto.
  - apply lift_like; auto. apply prepend_like; auto.
  - apply lift_like; auto. apply after_like; auto.
  - apply lift_like; auto. apply after_like; auto.
  - unfold append_new. destruct (create_like name t u S) as [E S1]. destruct (create_node name t) as [x t1], (create_node name u) as [y u1]. cbn in E, S1. subst y.
    apply lift_new; auto. apply append_like. apply S1.
  - unfold prepend_new. destruct (create_like name t u S) as [E S1]. destruct (create_node name t) as [x t1], (create_node name u) as [y u1]. cbn in E, S1. subst y.
    apply lift_new; auto. apply prepend_like. apply S1.
  - unfold insert_new_after. rewrite RT. destruct (Nat.eqb y (tr_root u)); [exact I|]. destruct (create_like name t u S) as [E S1]. destruct (create_node name t) as [x t1], (create_node name u) as [z u1]. cbn in E, S1. subst z.
    apply lift_new; auto. apply after_like. apply S1.
  - unfold insert_new_before. rewrite RT. destruct (Nat.eqb y (tr_root u)); [exact I|]. destruct (create_like name t u S) as [E S1]. destruct (create_node name t) as [x t1], (create_node name u) as [z u1]. cbn in E, S1. subst z.
    apply lift_new; auto. apply before_like. apply S1.
  - apply lift_like; auto. apply detach_like; auto.
  - unfold append_attribute. rewrite RT, (used_like _ _ i F). destruct (Nat.eqb i (tr_root u)); [exact I|]. destruct (used _ i); [|exact I]. split; [|cbn; auto].
    cbn. apply upd_like; [|exact F]. intros x y K. apply (set_like x y K). apply Forall2_app; [apply K|]. inversion V; subst. constructor; auto.
  - unfold assign_attribute. pose proof (F2_nth _ _ _ _ F i) as H. destruct (nth_error (tr_arena t) i), (nth_error (tr_arena u) i); try contradiction; [|exact I].
    cbn. split; [|cbn; auto]. cbn. apply upd_like; [|exact F]. intros x y K. apply (set_like x y K). inversion V; subst. apply F2_upd; [assumption|apply K].
  - unfold take_attributes. pose proof (F2_nth _ _ _ _ F i) as H. destruct (nth_error (tr_arena t) i), (nth_error (tr_arena u) i); try contradiction; [|exact I].
    cbn. split; [|cbn; auto]. cbn. apply upd_like; [|exact F]. intros x y K. apply (set_like x y K). constructor.
  - unfold set_attributes. rewrite (used_like _ _ i F). destruct (used _ i); [|exact I]. split; [|cbn; auto]. cbn. apply upd_like; [|exact F]. intros x y K. apply (set_like x y K).
    clear - V. induction V; constructor; auto.
Qed.

Lemma observe_like : forall t u, same_tree R t u ->
  tr_root t = tr_root u /\ (forall i, node_of t i <-> node_of u i) /\
  (forall i, parent t i = parent u i) /\ (forall i, children t i = children u i) /\
  (forall i, previous_sibling t i = previous_sibling u i /\ next_sibling t i = next_sibling u i) /\
  (forall i, name t i = name u i) /\ (forall i s, children_by_name t i s = children_by_name u i s) /\
  (forall k c, run_tcall t k c = run_tcall u k c) /\
  (forall i, match attributes t i, attributes u i with Some l, Some m => Forall2 R l m | None, None => True | _, _ => False end).
Proof.
  intros t u (F & N & RT). pose proof (F2_len _ _ _ _ F) as LE.
  assert (LN : forall f, link f -> forall i, lk f (tr_arena t) i = lk f (tr_arena u) i) by (intros f L; apply lk_like; auto).
  assert (NS : forall i, name_sym t i = name_sym u i).
  { intros i. unfold name_sym. pose proof (F2_nth _ _ _ _ F i) as H. destruct (nth_error (tr_arena t) i), (nth_error (tr_arena u) i); try contradiction; [|reflexivity]. cbn. f_equal. apply H. }
  assert (WK : forall n o, walk n t o = walk n u o).
  { induction n as [|n IH]; intros [i|]; try reflexivity. cbn. unfold next_sibling. rewrite (LN _ link_next i), IH. reflexivity. }
  assert (CH : forall i, children t i = children u i).
  { intros i. unfold children, first_child. rewrite LE, (LN _ link_first i). apply WK. }
  assert (NX : forall e, dft_next t e = dft_next u e).
  { intros [i|i]; cbn; unfold first_child, next_sibling, parent; rewrite ?(LN _ link_first i), ?(LN _ link_next i), ?(LN _ link_parent i); reflexivity. }
  assert (PV : forall e, dft_prev t e = dft_prev u e).
  { intros [i|i]; cbn; unfold last_child, previous_sibling, parent; rewrite ?(LN _ link_last i), ?(LN _ link_prev i), ?(LN _ link_parent i); reflexivity. }
  assert (NF : forall c, next_forward t c = next_forward u c) by (intros [[f b]|]; [|reflexivity]; cbn; rewrite NX; reflexivity).
  assert (NB : forall c, next_backward t c = next_backward u c) by (intros [[f b]|]; [|reflexivity]; cbn; rewrite PV; reflexivity).
  assert (SK : forall (s1 s2 : cursors -> option (option dft * cursors)) o, (forall c, s1 c = s2 c) -> forall n c, seek_kind n s1 o c = seek_kind n s2 o c).
  { intros s1 s2 o E. induction n as [|n IH]; intros c; [reflexivity|]. cbn. rewrite E. destruct (s2 c) as [[[e|] c']|]; try reflexivity. rewrite IH. reflexivity. }
  split; [exact RT|]. split; [intros i; unfold node_of; rewrite LE; tauto|]. split; [intros i; apply (LN _ link_parent)|]. split; [exact CH|].
  split; [intros i; split; [apply (LN _ link_prev)|apply (LN _ link_next)]|]. split; [intros i; unfold name; rewrite NS, N; reflexivity|]. split; [|split].
  - intros i s. unfold children_by_name. rewrite N, CH. destruct (sym_of (tr_names u) s); [|reflexivity]. apply filter_ext. intros c. rewrite NS. reflexivity.
  - intros k c. destruct k; cbn [run_tcall]; auto; unfold next_open_forward, next_close_forward, next_open_backward, next_close_backward, dft_fuel; rewrite LE;
      (rewrite (SK _ _ _ NF) || rewrite (SK _ _ _ NB)); reflexivity.
  - intros i. unfold attributes. pose proof (F2_nth _ _ _ _ F i) as H. destruct (nth_error (tr_arena t) i), (nth_error (tr_arena u) i); try contradiction; [|exact I]. cbn. apply H.
Qed.
End Like.

(** ** C77 *)

(** Trees that compare equal answer every question alike (attributes as far as [==] goes). *)
Theorem C77_observers : forall t u, tree_eqb t u = true ->
  tr_root t = tr_root u /\ (forall i, node_of t i <-> node_of u i) /\
  (forall i, parent t i = parent u i) /\ (forall i, children t i = children u i) /\
  (forall i, previous_sibling t i = previous_sibling u i /\ next_sibling t i = next_sibling u i) /\
  (forall i, name t i = name u i) /\ (forall i s, children_by_name t i s = children_by_name u i s) /\
  (forall k c, run_tcall t k c = run_tcall u k c) /\
  (forall i, match attributes t i, attributes u i with
             | Some l, Some m => Forall2 (fun x y => aval_eqb x y = true) l m
             | None, None => True
             | _, _ => False
             end).
Proof. intros t u H. apply tree_eqb_iff in H. exact (observe_like veq t u H). Qed.

(** They stand for the same document. *)
Lemma docs_like : forall t u, tree_eqb t u = true -> tree_floats_ok t -> tree_floats_ok u ->
  forall d i e, doc_at t i d -> doc_at u i e -> equal_docs d e.
Proof.
  intros t u H Ft Fu. destruct (C77_observers t u H) as (_ & _ & _ & C & _ & NM & _ & _ & AT).
  assert (IND : forall P : dnode -> Prop, (forall nm ats ks, Forall P ks -> P (DNode nm ats ks)) -> forall d, P d).
  { intros P HP. fix IH 1. intros [nm ats ks]. apply HP. induction ks; constructor; auto. }
  induction d as [nm ats ks IH] using IND. intros i e D E. inversion D as [? ? ? ? N1 A1 K1]; subst. inversion E as [? ? bts ms N2 A2 K2]; subst.
  rewrite NM in N1. assert (nm0 = nm) by congruence. subst nm0. constructor.
  - specialize (AT i). rewrite A1, A2 in AT. specialize (Ft i _ A1). specialize (Fu i _ A2). clear - AT Ft Fu.
    induction AT; constructor; inversion Ft; inversion Fu; subst; auto. apply C61_eq; auto.
  - rewrite C in K1. clear - IH K1 K2. revert ms K2. induction K1 as [|c k cs ks D K1 IHk]; intros ms K2; inversion K2; subst; constructor.
    + inversion IH; subst. eauto.
    + inversion IH; subst. auto.
Qed.
Theorem C77_documents : forall t u d e, tree_eqb t u = true -> tree_floats_ok t -> tree_floats_ok u ->
  doc_at t (tr_root t) d -> doc_at u (tr_root u) e -> equal_docs d e.
Proof.
  intros t u d e H Ft Fu D E. destruct (C77_observers t u H) as (RT & _). rewrite <- RT in E. apply (docs_like t u H Ft Fu d (tr_root t) e D E).
Qed.

(** Every operation does the same to both: it panics on both, or leaves equal trees. *)
Theorem C77_operations : forall o t u, tree_eqb t u = true -> Forall (fun v => aval_eqb v v = true) (values_of o) ->
  match run_top o t, run_top o u with
  | Some t', Some u' => tree_eqb t' u' = true
  | None, None => True
  | _, _ => False
  end.
Proof.
  intros o t u H V. apply tree_eqb_iff in H. pose proof (op_like veq o t u H V) as L. unfold tlike in L.
  destruct (run_top o t), (run_top o u); auto. apply tree_eqb_iff. exact L.
Qed.

(** A tree is equal to itself, and to its clones, exactly if it contains no NaN (in detached
    nodes neither); equality is symmetric and transitive. *)
Theorem C77_reflexive : forall t, tree_floats_ok t ->
  (tree_eqb t t = true <-> forall i l, attributes t i = Some l -> Forall no_nan l).
Proof.
  intros t Ft. rewrite tree_eqb_iff. destruct C61_partial_equivalence as (_ & _ & RF). split.
  - intros S i l A. destruct (observe_like veq t t S) as (_ & _ & _ & _ & _ & _ & _ & _ & AT). specialize (AT i). rewrite A in AT. specialize (Ft i l A).
    clear - AT Ft RF. assert (G : Forall (fun v => veq v v) l).
    { clear Ft. induction l as [|v l IH]; constructor; inversion AT; subst; auto. }
    rewrite Forall_forall in *. intros v Hv. apply RF; [apply Ft; exact Hv|apply G; exact Hv].
  - intros H. split; [|auto].
    assert (G : forall s, In s (tr_arena t) -> alike veq s s).
    { intros s Hs. apply In_nth_error in Hs as [i Hi]. assert (A : attributes t i = Some (sl_attrs s)) by (unfold attributes; rewrite Hi; reflexivity).
      specialize (H i _ A). specialize (Ft i _ A). unfold alike. repeat split. clear - H Ft RF. induction (sl_attrs s) as [|v l IH]; constructor; inversion H; inversion Ft; subst; auto.
      apply RF; assumption. }
    clear - G. induction (tr_arena t) as [|s a IH]; constructor; [apply G; cbn; auto|apply IH; intros z Hz; apply G; cbn; auto].
Qed.
Theorem C77_partial_equivalence : forall t u v, tree_floats_ok t -> tree_floats_ok u -> tree_floats_ok v ->
  (tree_eqb t u = true -> tree_eqb u t = true) /\
  (tree_eqb t u = true -> tree_eqb u v = true -> tree_eqb t v = true).
Proof.
  intros t u v Ft Fu Fv. destruct C61_partial_equivalence as (SY & TR & _). rewrite !tree_eqb_iff.
  assert (OK : forall t, tree_floats_ok t -> Forall (fun s => Forall floats_ok (sl_attrs s)) (tr_arena t)).
  { intros w Fw. apply Forall_forall. intros s Hs. apply In_nth_error in Hs as [i Hi]. apply (Fw i). unfold attributes. rewrite Hi. reflexivity. }
  apply OK in Ft, Fu, Fv. split.
  - intros (F & N & RT). split; [|auto]. revert Ft Fu. clear - F SY. induction F as [|x y a b H F IH]; intros A B; constructor; inversion A; inversion B; subst; auto.
    destruct H as (E1 & E2 & E3 & E4 & E5 & E6 & E7). unfold alike. repeat split; auto.
    match goal with H1 : Forall floats_ok (sl_attrs x), H2 : Forall floats_ok (sl_attrs y) |- _ => revert H1 H2 end. clear - E7 SY.
    induction E7; intros A B; constructor; inversion A; inversion B; subst; auto. apply SY; auto.
  - intros (F & N & RT) (F' & N' & RT'). split; [|split; congruence]. revert Ft Fu Fv. generalize dependent (tr_arena v). clear - F TR.
    induction F as [|x y a b H F IH]; intros m F' A B C; inversion F' as [|? z ? c H' F'']; subst; constructor; inversion A; inversion B; inversion C; subst; auto.
    destruct H as (E1 & E2 & E3 & E4 & E5 & E6 & E7). destruct H' as (G1 & G2 & G3 & G4 & G5 & G6 & G7). unfold alike. repeat split; try congruence.
    match goal with H1 : Forall floats_ok (sl_attrs x), H2 : Forall floats_ok (sl_attrs y), H3 : Forall floats_ok (sl_attrs z) |- _ => revert H1 H2 H3 end. clear - E7 G7 TR.
    revert G7. generalize (sl_attrs z) as n. induction E7; intros n G7 A B C; inversion G7; subst; constructor; inversion A; inversion B; inversion C; subst; auto.
    match goal with H1 : veq ?a ?b, H2 : veq ?b ?c |- veq ?a ?c => apply (TR a b c); assumption end.
Qed.

(** ** Examples, and what [==] does not tell *)

Module CmpCases.
  Open Scope byte_scope.
  (** Two nodes a and b with a float each; 0.0 in the one tree, -0.0 in the other. *)
  Definition story (z : N) : list top :=
    [ OpAppendNew 0 ["a"]; OpAppendNew 0 ["b"]; OpAppendAttribute 1 (VF32 z); OpAppendAttribute 2 (VF32 1065353216) ].
  Definition tree_of (l : list top) : tree := match run_tops l tree_default with Some t => t | None => tree_default end.
  Definition plus : tree := tree_of (story 0).
  Definition minus : tree := tree_of (story 2147483648).
  (** The nodes were created in the other order. *)
  Definition other_story : list top := [ OpAppendNew 0 ["b"]; OpPrependNew 0 ["a"]; OpAppendAttribute 2 (VF32 0); OpAppendAttribute 1 (VF32 1065353216) ].
  Definition other : tree := tree_of other_story.
  Lemma plus_grown : grown plus.
  Proof. apply (run_tops_grown (story 0) tree_default); [apply grown_default|reflexivity|vm_compute; reflexivity]. Qed.
  Lemma minus_grown : grown minus.
  Proof. apply (run_tops_grown (story 2147483648) tree_default); [apply grown_default|reflexivity|vm_compute; reflexivity]. Qed.
  Lemma other_grown : grown other.
  Proof. apply (run_tops_grown other_story tree_default); [apply grown_default|reflexivity|vm_compute; reflexivity]. Qed.
  Lemma floats : tree_floats_ok plus /\ tree_floats_ok minus /\ tree_floats_ok other.
  Proof.
    repeat split; intros i l H; destruct i as [|[|[|[|i]]]]; vm_compute in H; try discriminate; injection H as <-; repeat constructor.
  Qed.
End CmpCases.

Example C77_ex : tree_eqb CmpCases.plus CmpCases.minus = true /\ tree_floats_ok CmpCases.plus /\ tree_floats_ok CmpCases.minus /\
  CmpCases.plus <> CmpCases.minus /\ tree_eqb CmpCases.plus tree_default = false /\
  exists d e, doc_at CmpCases.plus 0 d /\ doc_at CmpCases.minus 0 e /\ d <> e.
Proof.
  split; [vm_compute; reflexivity|]. split; [apply CmpCases.floats|]. split; [apply CmpCases.floats|]. split; [intros H; vm_compute in H; discriminate H|].
  split; [vm_compute; reflexivity|].
  exists (DNode [] [] [DNode ["a"%byte] [VF32 0] []; DNode ["b"%byte] [VF32 1065353216] []]), (DNode [] [] [DNode ["a"%byte] [VF32 2147483648] []; DNode ["b"%byte] [VF32 1065353216] []]).
  split; [|split; [|discriminate]]; (constructor; [vm_compute; reflexivity|vm_compute; reflexivity|]; repeat (constructor; try (vm_compute; reflexivity))).
Qed.

(** The full claim, that [==] tells whether two trees stand for the same document, fails both
    ways: trees that are equal need not be strictly equal, and trees that are strictly equal
    (and contain no NaN) need not be equal, as the order in which the nodes were created
    counts. *)
Theorem C77_strict_refuted : exists t u, grown t /\ grown u /\ tree_eqb t u = true /\ tree_strict_eq t u = Some false.
Proof.
  exists CmpCases.plus, CmpCases.minus. split; [exact CmpCases.plus_grown|]. split; [exact CmpCases.minus_grown|]. split; vm_compute; reflexivity.
Qed.
Theorem C77_history_refuted : exists t u, grown t /\ grown u /\ tree_eqb t t = true /\ tree_eqb u u = true /\
  tree_strict_eq t u = Some true /\ tree_eqb t u = false.
Proof.
  exists CmpCases.plus, CmpCases.other. split; [exact CmpCases.plus_grown|]. split; [exact CmpCases.other_grown|]. repeat split; vm_compute; reflexivity.
Qed.
