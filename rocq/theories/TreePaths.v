(** Paths to the top, acyclicity, and the invariants of all histories. *)
Require Import Coq.Lists.List Coq.Arith.PeanoNat Coq.Bool.Bool Lia.
Require Import Coq.Init.Byte.
Require Import Verif.Base Verif.BaseFacts Verif.Types Verif.Values Verif.Tree Verif.TreeFacts Verif.TreeSpec Verif.TreeLinks Verif.TreeOps.
Import ListNotations.

(** The path from a node up to a node without a parent. *)
Inductive up (t : tree) : nat -> list nat -> Prop :=
| up_top : forall i, parent t i = None -> up t i [i]
| up_step : forall i p l, parent t i = Some p -> up t p l -> up t i (i :: l).
Definition acyclic (t : tree) := forall i, node_of t i -> exists l, up t i l.

Lemma up_det : forall t i l, up t i l -> forall m, up t i m -> l = m.
Proof.
  induction 1 as [i H|i p l H U IH]; intros m V; inversion V; subst; try congruence.
  f_equal. apply IH. congruence.
Qed.
Lemma up_hd : forall t i l, up t i l -> exists k, l = i :: k.
Proof. intros t i l U; inversion U; eauto. Qed.
Lemma up_sub : forall t i l, up t i l -> forall j, In j l -> exists m k, up t j m /\ l = k ++ m.
Proof.
  induction 1 as [i H|i p l H U IH]; intros j Hj.
  - destruct Hj as [<-|[]]. exists [i], []. split; [constructor; exact H|reflexivity].
  - destruct Hj as [<-|Hj].
    + exists (i :: l), []. split; [econstructor; eauto|reflexivity].
    + destruct (IH j Hj) as (m & k & V & ->). exists m, (i :: k). auto.
Qed.
Lemma up_nodup : forall t i l, up t i l -> NoDup l.
Proof.
  induction 1 as [i H|i p l H U IH]; [repeat constructor; intros []|].
  constructor; [|exact IH]. intros HI. destruct (up_sub _ _ _ U _ HI) as (m & k & V & E).
  assert (W : up t i (i :: l)) by (econstructor; eauto). pose proof (up_det _ _ _ V _ W) as EM.
  subst m. apply (f_equal (@length nat)) in E. rewrite app_length in E. cbn in E. lia.
Qed.
Lemma up_used : forall t i l, linked t -> node_of t i -> up t i l -> forall j, In j l -> node_of t j.
Proof.
  intros t i l LT Hi U. induction U as [i H|i p l H U IH]; intros j Hj.
  - destruct Hj as [<-|[]]. exact Hi.
  - destruct Hj as [<-|Hj]; [exact Hi|]. apply IH; [|exact Hj]. apply (parent_used t LT _ _ H).
Qed.
Lemma up_length : forall t i l, linked t -> node_of t i -> up t i l -> length l <= length (tr_arena t).
Proof. intros t i l LT Hi U. apply nodup_bounded; [apply (up_nodup _ _ _ U)|]. apply (up_used _ _ _ LT Hi U). Qed.

Lemma above_up : forall t x i l, up t i l -> (above t x i <-> In x l).
Proof.
  intros t x i l U. split.
  - intros A. revert l U. induction A as [|i p H A IH]; intros l U.
    + destruct (up_hd _ _ _ U) as [k ->]. cbn. auto.
    + inversion U; subst; [congruence|]. right. apply IH. congruence.
  - induction U as [i H|i p l H U IH]; intros Hx.
    + destruct Hx as [->|[]]. constructor.
    + destruct Hx as [->|Hx]; [constructor|]. econstructor; eauto.
Qed.

Lemma anc_mem_up : forall t x i l, up t i l -> forall fuel, length l <= fuel -> anc_mem fuel (tr_arena t) x i = Some (memb x l).
Proof.
  intros t x. induction 1 as [i H|i p l H U IH]; intros fuel F; (destruct fuel as [|fuel]; [cbn in F; lia|]);
    cbn [anc_mem]; unfold parent in H; rewrite H.
  - unfold memb. cbn. rewrite (Nat.eqb_sym x i). destruct (Nat.eqb i x); reflexivity.
  - unfold memb in *. cbn [existsb]. rewrite (Nat.eqb_sym x i). destruct (Nat.eqb i x); [reflexivity|]. cbn [orb]. apply IH. cbn in F. lia.
Qed.
Lemma anc_mem_sound : forall t x p fuel b, anc_mem fuel (tr_arena t) x p = Some b -> (b = true <-> above t x p).
Proof.
  intros t x p fuel. revert p. induction fuel as [|fuel IH]; intros p b H; [discriminate|]. cbn [anc_mem] in H.
  destruct (Nat.eqb_spec p x).
  - injection H as <-. subst. split; [constructor|reflexivity].
  - destruct (lk sl_parent (tr_arena t) p) as [q|] eqn:E.
    + rewrite (IH _ _ H). split; [intros A; econstructor; [exact E|exact A]|].
      intros A; inversion A as [|? ? HP ?]; subst; [contradiction|]. unfold parent in HP. congruence.
    + injection H as <-. split; [discriminate|]. intros A; inversion A as [|? ? HP ?]; subst; [contradiction|]. unfold parent in HP. congruence.
Qed.

(** Moving a node keeps the tree acyclic unless it goes under itself. *)
Lemma up_same : forall t t' x i l, (forall i, i <> x -> parent t' i = parent t i) -> up t i l -> ~ In x l -> up t' i l.
Proof.
  intros t t' x i l P. induction 1 as [i H|i p l H U IH]; intros NI.
  - constructor. rewrite P; [exact H|]. intros ->. apply NI. cbn. auto.
  - econstructor; [rewrite P; [exact H|]; intros ->; apply NI; cbn; auto|]. apply IH. intros HI. apply NI. cbn. auto.
Qed.
Lemma acyclic_move : forall t t' x par, linked t -> acyclic t -> same_nodes t t' ->
  (forall i, parent t' i = if Nat.eqb i x then par else parent t i) ->
  (forall p, par = Some p -> node_of t p /\ ~ above t x p) -> acyclic t'.
Proof.
  intros t t' x par LT AC SN P NP i Hi. apply SN in Hi. destruct (AC i Hi) as [l U].
  assert (P' : forall i, i <> x -> parent t' i = parent t i) by (intros j Hj; rewrite P; destruct (Nat.eqb_spec j x); congruence).
  assert (X : exists m, up t' x m).
  { destruct par as [p|] eqn:EP.
    - destruct (NP p eq_refl) as [Hp NA]. destruct (AC p Hp) as [lp V]. exists (x :: lp). econstructor.
      + rewrite P, Nat.eqb_refl. reflexivity.
      + apply (up_same t t' x); auto. intros HI. apply NA. apply (above_up _ _ _ _ V). exact HI.
    - exists [x]. constructor. rewrite P, Nat.eqb_refl. reflexivity. }
  induction U as [i H|i p l H U IH].
  - destruct (Nat.eq_dec i x) as [->|N]; [exact X|]. exists [i]. constructor. rewrite P'; assumption.
  - destruct (Nat.eq_dec i x) as [->|N]; [exact X|].
    destruct IH as [m V]; [apply (parent_used t LT _ _ H)|]. exists (i :: m). econstructor; [rewrite P'; eassumption|exact V].
Qed.
Lemma acyclic_same : forall t t', acyclic t -> (forall i, parent t' i = parent t i) ->
  (forall i, node_of t' i -> node_of t i \/ parent t i = None) -> acyclic t'.
Proof.
  intros t t' AC P N i Hi. destruct (N i Hi) as [Ui|Pi].
  - destruct (AC i Ui) as [l U]. exists l. clear - U P. induction U; [constructor|econstructor]; rewrite ?P; eauto.
  - exists [i]. constructor. rewrite P. exact Pi.
Qed.

(** ** All histories *)

Lemma default_wf : wf tree_default.
Proof.
  constructor.
  - eexists; eexists; exact default_links.
  - repeat constructor. intros [].
  - intros [|i] s H; cbn in H; [injection H as <-; cbn; lia|]. destruct i; discriminate.
  - unfold node_of; cbn; lia.
Qed.

(** Append under the new tree a node just created. *)
Lemma new_inv : forall t1 (x : nat) o r, option_map (pair x) (lift_arena t1 o) = Some r ->
  exists a, o = Some a /\ r = (x, with_arena t1 a).
Proof. intros t1 x [a|] r H; [injection H as <-; eauto|discriminate]. Qed.

Lemma append_not_above : forall x p t t', append x p t = Some t' -> ~ above t x p.
Proof.
  intros x p t t' H A. apply lift_some in H as (a & H & _). unfold a_append in H.
  destruct (negb _); [discriminate|]. destruct (Nat.eqb x p); [discriminate|].
  destruct (anc_mem _ _ _ _) as [[]|] eqn:E; try discriminate. apply anc_mem_sound in E. apply E in A. discriminate.
Qed.
Lemma prepend_not_above : forall x p t t', prepend x p t = Some t' -> ~ above t x p.
Proof.
  intros x p t t' H A. apply lift_some in H as (a & H & _). unfold a_prepend in H.
  destruct (negb _); [discriminate|]. destruct (Nat.eqb x p); [discriminate|].
  destruct (anc_mem _ _ _ _) as [[]|] eqn:E; try discriminate. apply anc_mem_sound in E. apply E in A. discriminate.
Qed.

Lemma append_step : forall x p t t', wf t -> append x p t = Some t' -> wf t' /\ (acyclic t -> acyclic t').
Proof.
  intros x p t t' W H. pose proof (append_not_above _ _ _ _ H) as NA.
  destruct (append_effect t t' (wf_links _ W) x p H) as (M & L & (Hp & Hx & NE) & P & _).
  split; [apply (moved_wf t); assumption|]. intros AC. apply (acyclic_move t t' x (Some p)); auto.
  - apply (wf_links _ W).
  - apply moved_nodes. exact M.
  - intros q E. injection E as <-. auto.
Qed.
Lemma prepend_step : forall x p t t', wf t -> prepend x p t = Some t' -> wf t' /\ (acyclic t -> acyclic t').
Proof.
  intros x p t t' W H. pose proof (prepend_not_above _ _ _ _ H) as NA.
  destruct (prepend_effect t t' (wf_links _ W) x p H) as (M & L & (Hp & Hx & NE) & P & _).
  split; [apply (moved_wf t); assumption|]. intros AC. apply (acyclic_move t t' x (Some p)); auto.
  - apply (wf_links _ W).
  - apply moved_nodes. exact M.
  - intros q E. injection E as <-. auto.
Qed.
Lemma beside_step : forall (after : bool) x y t t', wf t ->
  lift_arena t (if after then a_insert_after y x (tr_arena t) else a_insert_before y x (tr_arena t)) = Some t' ->
  wf t' /\ (acyclic t -> ~ above t x y -> acyclic t').
Proof.
  intros after x y t t' W H.
  destruct (beside_effect t t' (wf_links _ W) after x y H) as (M & L & (Hp & Hx & NE & _) & P & _).
  split; [apply (moved_wf t); assumption|]. intros AC NA. apply (acyclic_move t t' x (parent t y)); auto.
  - apply (wf_links _ W).
  - apply moved_nodes. exact M.
  - intros q E. split; [apply (parent_used t (wf_links _ W) _ _ E)|]. intros A. apply NA. econstructor; eauto.
Qed.
Lemma detach_step : forall x t t', wf t -> detach x t = Some t' -> wf t' /\ (acyclic t -> acyclic t').
Proof.
  intros x t t' W H.
  destruct (detach_effect t t' (wf_links _ W) x H) as (M & L & Hx & P & _).
  split; [apply (moved_wf t); assumption|]. intros AC. apply (acyclic_move t t' x None); auto.
  - apply (wf_links _ W).
  - apply moved_nodes. exact M.
  - discriminate.
Qed.
Lemma create_step : forall s x t t', wf t -> create_node s t = (x, t') -> wf t' /\ (acyclic t -> acyclic t').
Proof.
  intros s x t t' W H. destruct (create_effect _ _ _ _ W H) as (W' & EX & LA & R & P & _).
  split; [exact W'|]. intros AC. apply (acyclic_same t); auto.
  intros i Hi. unfold node_of in *. destruct (Nat.eq_dec i (length (tr_arena t))); [|left; lia].
  right. unfold parent. apply lk_unused. lia.
Qed.
Lemma attrs_step : forall i f t, wf t -> (forall s, exists l, f s = set_sattrs l s) ->
  let t' := with_arena t (upd i f (tr_arena t)) in wf t' /\ (acyclic t -> acyclic t').
Proof.
  intros i f t W F t'. destruct (attrs_effect t i f W F) as (W' & _ & SN & P & _). split; [exact W'|].
  intros AC. apply (acyclic_same t); auto. intros j Hj. left. apply SN. exact Hj.
Qed.

Lemma above_new : forall t s x t1 y, wf t -> create_node s t = (x, t1) -> node_of t y -> ~ above t1 x y.
Proof.
  intros t s x t1 y W C Hy A. destruct (create_effect _ _ _ _ W C) as (W1 & EX & LA & R & P & _).
  revert Hy. induction A as [|i p H A IH]; intros Hy.
  - unfold node_of in Hy. lia.
  - apply IH. rewrite P in H. apply (parent_used t (wf_links _ W) _ _ H).
Qed.

Lemma step_inv : forall o t t', wf t -> run_top o t = Some t' -> wf t' /\ (acyclic t -> sane o t -> acyclic t').
Proof.
  intros o t t' W H. destruct o; cbn [run_top sane] in *.
  - injection H as <-. destruct (create_node name t) as [x t1] eqn:C. destruct (create_step _ _ _ _ W C). auto.
  - destruct (append_step _ _ _ _ W H); auto.
  - destruct (prepend_step _ _ _ _ W H); auto.
  - destruct (beside_step true _ _ _ _ W H); auto.
  - destruct (beside_step true _ _ _ _ W H); auto.
  - unfold append_new in H. destruct (create_node name t) as [x t1] eqn:C. destruct (create_step _ _ _ _ W C) as [W1 A1].
    destruct (option_map (pair x) _) as [r|] eqn:E; [|discriminate]. injection H as <-.
    apply new_inv in E as (a & E & ->). assert (HA : append x p t1 = Some (with_arena t1 a)) by (unfold append; rewrite E; reflexivity).
    destruct (append_step _ _ _ _ W1 HA). auto.
  - unfold prepend_new in H. destruct (create_node name t) as [x t1] eqn:C. destruct (create_step _ _ _ _ W C) as [W1 A1].
    destruct (option_map (pair x) _) as [r|] eqn:E; [|discriminate]. injection H as <-.
    apply new_inv in E as (a & E & ->). assert (HA : prepend x p t1 = Some (with_arena t1 a)) by (unfold prepend; rewrite E; reflexivity).
    destruct (prepend_step _ _ _ _ W1 HA). auto.
  - unfold insert_new_after in H. destruct (Nat.eqb y (tr_root t)); [discriminate|].
    destruct (create_node name t) as [x t1] eqn:C. destruct (create_step _ _ _ _ W C) as [W1 A1].
    destruct (option_map (pair x) _) as [r|] eqn:E; [|discriminate]. injection H as <-.
    apply new_inv in E as (a & E & ->).
    assert (HA : lift_arena t1 (if true then a_insert_after y x (tr_arena t1) else a_insert_before y x (tr_arena t1)) = Some (with_arena t1 a)) by (cbn; rewrite E; reflexivity).
    destruct (beside_step true _ _ _ _ W1 HA) as [W2 A2]. split; [exact W2|]. intros AC _. apply A2; auto.
    destruct (beside_effect t1 _ (wf_links _ W1) true x y HA) as (_ & _ & (Hy & _ & NE & _) & _).
    apply (above_new t name x t1 y W C). destruct (create_effect _ _ _ _ W C) as (_ & EX & LA & _). unfold node_of in *. lia.
  - unfold insert_new_before in H. destruct (Nat.eqb y (tr_root t)); [discriminate|].
    destruct (create_node name t) as [x t1] eqn:C. destruct (create_step _ _ _ _ W C) as [W1 A1].
    destruct (option_map (pair x) _) as [r|] eqn:E; [|discriminate]. injection H as <-.
    apply new_inv in E as (a & E & ->).
    assert (HA : lift_arena t1 (if false then a_insert_after y x (tr_arena t1) else a_insert_before y x (tr_arena t1)) = Some (with_arena t1 a)) by (cbn; rewrite E; reflexivity).
    destruct (beside_step false _ _ _ _ W1 HA) as [W2 A2]. split; [exact W2|]. intros AC _. apply A2; auto.
    destruct (beside_effect t1 _ (wf_links _ W1) false x y HA) as (_ & _ & (Hy & _ & NE & _) & _).
    apply (above_new t name x t1 y W C). destruct (create_effect _ _ _ _ W C) as (_ & EX & LA & _). unfold node_of in *. lia.
  - destruct (detach_step _ _ _ W H); auto.
  - unfold append_attribute in H. destruct (Nat.eqb i (tr_root t)); [discriminate|]. destruct (used _ i); [|discriminate]. injection H as <-.
    destruct (attrs_step i (fun s => set_sattrs (sl_attrs s ++ [v]) s) t W); eauto.
  - unfold assign_attribute in H. destruct (nth_error (tr_arena t) i); [|discriminate]. injection H as <-.
    destruct (attrs_step i (fun s => set_sattrs (upd k (fun _ => v) (sl_attrs s)) s) t W); eauto.
  - unfold take_attributes in H. destruct (nth_error (tr_arena t) i); [|discriminate]. injection H as <-.
    destruct (attrs_step i (set_sattrs []) t W); eauto.
  - unfold set_attributes in H. destruct (used _ i); [|discriminate]. injection H as <-.
    destruct (attrs_step i (set_sattrs l) t W); eauto.
Qed.

Lemma built_wf : forall t, built t -> wf t.
Proof. induction 1 as [|t o t' B IH H]; [exact default_wf|]. apply (step_inv _ _ _ IH H). Qed.
Lemma grown_built : forall t, grown t -> built t.
Proof. induction 1; [constructor|econstructor; eauto]. Qed.
Lemma grown_acyclic : forall t, grown t -> acyclic t.
Proof.
  induction 1 as [|t o t' G IH S H].
  - intros i Hi. unfold node_of in Hi. cbn in Hi. destruct i; [|lia]. exists [0]. constructor. reflexivity.
  - apply (step_inv _ _ _ (built_wf _ (grown_built _ G)) H); assumption.
Qed.

(** ** Roses *)
Fixpoint ids (r : rose) : list nat := match r with Rose i ks => i :: flat_map ids ks end.

Fixpoint rose_ind' (P : rose -> Prop) (H : forall i ks, Forall P ks -> P (Rose i ks)) (r : rose) : P r :=
  match r with
  | Rose i ks => H i ks ((fix go l : Forall P l := match l with [] => Forall_nil _ | k :: l' => Forall_cons _ (rose_ind' P H k) (go l') end) ks)
  end.

Section Acyclic.
Context (t : tree) (LT : linked t) (AC : acyclic t).

Lemma rose_exists : forall i, node_of t i -> exists r, rose_at t r /\ rose_id r = i.
Proof.
  assert (G : forall d i l, node_of t i -> up t i l -> length (tr_arena t) <= length l + d -> exists r, rose_at t r /\ rose_id r = i).
  { induction d as [d IH] using (well_founded_ind Nat.lt_wf_0). intros i l Hi U D.
    assert (K : forall cs, (forall c, In c cs -> parent t c = Some i) -> exists ks, cs = map rose_id ks /\ Forall (rose_at t) ks).
    { induction cs as [|c cs IHc]; intros HC; [exists []; auto|].
      destruct IHc as (ks & -> & F); [intros; apply HC; cbn; auto|].
      assert (Pc : parent t c = Some i) by (apply HC; cbn; auto).
      assert (Uc : up t c (c :: l)) by (econstructor; eauto).
      destruct (parent_used t LT _ _ Pc) as [Hc _]. pose proof (up_length _ _ _ LT Hc Uc) as B. cbn in B.
      destruct (IH (pred d)) with (i := c) (l := c :: l) as (r & Rr & E); [lia|exact Hc|exact Uc|cbn; lia|].
      exists (r :: ks). cbn. rewrite E. auto. }
    destruct (K (children t i)) as (ks & E & F); [intros c; apply (child_parent t LT)|].
    exists (Rose i ks). split; [constructor; assumption|reflexivity]. }
  intros i Hi. destruct (AC i Hi) as [l U]. apply (G (length (tr_arena t)) i l Hi U). lia.
Qed.

Lemma ids_above : forall r, rose_at t r -> forall j, In j (ids r) -> node_of t j /\ above t (rose_id r) j.
Proof.
  induction r as [i ks IH] using rose_ind'. intros R j Hj. inversion R as [? ? Hi E F]; subst. cbn [ids rose_id] in *.
  destruct Hj as [<-|Hj]; [split; [exact Hi|constructor]|].
  apply in_flat_map in Hj as (k & Hk & Hj). rewrite Forall_forall in IH, F.
  destruct (IH k Hk (F k Hk) j Hj) as [Uj A]. split; [exact Uj|].
  assert (P : parent t (rose_id k) = Some i).
  { apply (child_parent t LT). rewrite E. apply in_map. exact Hk. }
  clear - A P. induction A as [|z q Hz A IHA].
  - econstructor; [exact P|constructor].
  - econstructor; [exact Hz|]. apply IHA; assumption.
Qed.

Lemma above_comparable : forall c d z, node_of t z -> above t c z -> above t d z -> above t c d \/ above t d c.
Proof.
  intros c d z Hz A. revert d. induction A as [|z p Hp A IH]; intros d B; [auto|].
  inversion B as [|? q Hq Bq]; subst.
  - left. econstructor; eauto.
  - assert (q = p) by congruence. subst q. apply IH; [apply (parent_used t LT _ _ Hp)|exact Bq].
Qed.

Lemma ids_nodup : forall r, rose_at t r -> NoDup (ids r).
Proof.
  induction r as [i ks IH] using rose_ind'. intros R. inversion R as [? ? Hi E F]; subst. cbn [ids].
  destruct (AC i Hi) as [li Ui].
  assert (PK : forall k, In k ks -> parent t (rose_id k) = Some i).
  { intros k Hk. apply (child_parent t LT). rewrite E. apply in_map. exact Hk. }
  assert (NB : forall c, parent t c = Some i -> ~ above t c i).
  { intros c Pc A. apply (above_up _ _ _ _ Ui) in A.
    assert (Uc : up t c (c :: li)) by (econstructor; eauto). pose proof (up_nodup _ _ _ Uc) as ND. inversion ND. contradiction. }
  constructor.
  - intros HI. apply in_flat_map in HI as (k & Hk & HI). rewrite Forall_forall in F.
    destruct (ids_above k (F k Hk) i HI) as [_ A]. exact (NB _ (PK k Hk) A).
  - pose proof (children_nodup t LT i) as NDC. rewrite E in NDC. clear E R Hi Ui.
    induction ks as [|k ks IHk]; [constructor|]. cbn [flat_map].
    inversion IH as [|? ? IH1 IH2]; subst. inversion F as [|? ? F1 F2]; subst. inversion NDC as [|? ? NI ND]; subst.
    assert (ND2 : NoDup (flat_map ids ks)) by (apply IHk; auto; intros; apply PK; cbn; auto).
    specialize (IH1 F1).
    assert (DJ : forall z, In z (ids k) -> ~ In z (flat_map ids ks)).
    { intros z Hz HI. apply in_flat_map in HI as (k2 & Hk2 & HI). rewrite Forall_forall in F2.
      destruct (ids_above k F1 z Hz) as [Uz A1]. destruct (ids_above k2 (F2 k2 Hk2) z HI) as [_ A2].
      assert (NE : rose_id k <> rose_id k2) by (intros EQ; apply NI; rewrite EQ; apply in_map; exact Hk2).
      destruct (above_comparable _ _ _ Uz A1 A2) as [A|A]; inversion A as [EQ|? p Hp B]; subst.
      - congruence.
      - rewrite (PK k2 (or_intror Hk2)) in Hp. injection Hp as <-. exact (NB _ (PK k (or_introl eq_refl)) B).
      - congruence.
      - rewrite (PK k (or_introl eq_refl)) in Hp. injection Hp as <-. exact (NB _ (PK k2 (or_intror Hk2)) B). }
    clear - IH1 ND2 DJ. induction (ids k) as [|z l IHl]; [exact ND2|]. cbn. inversion IH1; subst. constructor.
    + rewrite in_app_iff. intros [|]; [contradiction|]. apply (DJ z); cbn; auto.
    + apply IHl; [assumption|]. intros y Hy. apply DJ. cbn. auto.
Qed.
Lemma ids_length : forall r, rose_at t r -> length (ids r) <= length (tr_arena t).
Proof.
  intros r R. apply nodup_bounded; [apply ids_nodup; exact R|]. intros j Hj. apply (ids_above r R j Hj).
Qed.
End Acyclic.
