(** The tree loader builds the tree that the events describe. *)
Require Import Coq.Lists.List Coq.Arith.PeanoNat Coq.NArith.NArith Coq.ZArith.ZArith Coq.Bool.Bool Lia.
Require Import Coq.Init.Byte.
Require Import ZifyBool ZifyNat ZifyN.
Require Import Verif.Base Verif.BaseFacts Verif.Utf8 Verif.Types Verif.Io Verif.IoFacts Verif.Parser Verif.MonadFacts Verif.ParserSteps Verif.ParserShape Verif.SpecHist Verif.ParserHist Verif.Loaders Verif.PropsSafety Verif.Tree Verif.TreeFacts Verif.TreeSpec Verif.TreeLinks Verif.TreeOps Verif.TreePaths Verif.PropsTree Verif.PropsTreeEq Verif.TreeIo Verif.TreeIoSpec.
Import ListNotations.
Local Open Scope nat_scope.
Local Open Scope list_scope.
Ltac Zify.zify_post_hook ::= Z.div_mod_to_equations.

(** ** Trees under construction *)

(** [t'] is [t] with a new last child [x] of [p], with a name and attributes. *)
Record leaf_added (t : tree) (p : nat) (nm : list byte) (ats : list aval) (x : nat) (t' : tree) : Prop := mkLeaf {
  la_grown : grown t';
  la_new : ~ node_of t x;
  la_nodes : forall i, node_of t' i <-> node_of t i \/ i = x;
  la_root : tr_root t' = tr_root t;
  la_parent : parent t' x = Some p;
  la_parents : forall i, i <> x -> parent t' i = parent t i;
  la_children : forall q, children t' q = children t q ++ (if Nat.eqb q p then [x] else []);
  la_name : name t' x = Some nm;
  la_attrs : attributes t' x = Some ats;
  la_same : forall i, node_of t i -> name t' i = name t i /\ attributes t' i = attributes t i
}.

(** A node under construction. *)
Record zframe := mkZ { z_name : list byte; z_ats : list aval; z_kids : list dnode }.
Definition olist {A} (o : option A) : list A := match o with Some x => [x] | None => [] end.

(** The nodes [st] (innermost first) have the name, the attributes and the finished children
    of the frames; the last child of each but the innermost is the one before it. *)
Fixpoint zipped (t : tree) (below : option nat) (st : list nat) (fr : list zframe) : Prop :=
  match st, fr with
  | [], [] => True
  | i :: st', f :: fr' =>
      node_of t i /\ name t i = Some (z_name f) /\ attributes t i = Some (z_ats f) /\
      (exists cs, children t i = cs ++ olist below /\ Forall2 (doc_at t) cs (z_kids f)) /\
      zipped t (Some i) st' fr'
  | _, _ => False
  end.
Record zinv (t : tree) (st : list nat) (fr : list zframe) : Prop := mkZinv {
  zi_grown : grown t;
  zi_up : exists i, up t i st;
  zi_zip : zipped t None st fr
}.

Lemma above_trans : forall t a b c, above t a b -> above t b c -> above t a c.
Proof. intros t a b c H K. induction K; [exact H|]. econstructor; eauto. Qed.

Lemma doc_stable : forall t t', linked t -> forall d c, doc_at t c d ->
  (forall j, node_of t j -> above t c j -> children t' j = children t j /\ name t' j = name t j /\ attributes t' j = attributes t j) ->
  node_of t c -> doc_at t' c d.
Proof.
  intros t t' L. induction d as [nm ats ks IH] using dnode_ind'. intros c D H Hc. inversion D as [? ? ? ? N A K]; subst.
  destruct (H c Hc (above_self _ _)) as (E1 & E2 & E3). constructor; [congruence|congruence|]. rewrite E1.
  assert (CH : forall x, In x (children t c) -> node_of t x /\ forall j, node_of t j -> above t x j -> children t' j = children t j /\ name t' j = name t j /\ attributes t' j = attributes t j).
  { intros x Hx. split; [apply (children_used t L _ _ Hx)|]. intros j Hj A'. apply H; [exact Hj|].
    apply (above_trans t c x j); [|exact A']. econstructor; [apply (child_parent t L); exact Hx|constructor]. }
  clear - IH K CH. induction K as [|x k cs ks' D K IHK]; constructor.
  - inversion IH; subst. destruct (CH x (or_introl eq_refl)) as [Hx HJ]. auto.
  - inversion IH; subst. apply IHK; [assumption|]. intros y Hy. apply CH. cbn. auto.
Qed.

Lemma up_split : forall t i st, up t i st -> forall c p, In c st -> parent t c = Some p -> exists l1 l2, st = l1 ++ c :: p :: l2.
Proof.
  induction 1 as [i H|i q l H U IH]; intros c p Hc Hp.
  - destruct Hc as [<-|[]]. congruence.
  - destruct Hc as [<-|Hc].
    + assert (q = p) by congruence. subst q. destruct (up_hd _ _ _ U) as [k ->]. exists [], k. reflexivity.
    + destruct (IH c p Hc Hp) as (l1 & l2 & ->). exists (i :: l1), l2. reflexivity.
Qed.

Lemma nodup_split : forall (l1 : list nat) x l2 k1 k2, l1 ++ x :: l2 = k1 ++ x :: k2 -> NoDup (l1 ++ x :: l2) -> l1 = k1.
Proof.
  induction l1 as [|a l1 IH]; intros x l2 k1 k2 E ND; destruct k1 as [|b k1]; cbn in *; auto.
  - injection E as <- E. inversion ND as [|? ? NI _]; subst. exfalso. apply NI. apply in_or_app. cbn. auto.
  - injection E as <- E. inversion ND as [|? ? NI _]; subst. exfalso. apply NI. apply in_or_app. cbn. auto.
  - injection E as <- E. inversion ND; subst. f_equal. eapply IH; eauto.
Qed.

(** A finished child is not an ancestor of the innermost node. *)
Lemma finished_aside : forall t p whole, linked t -> up t p whole ->
  forall pre i st cs c, whole = pre ++ i :: st -> children t i = cs ++ olist (last_opt pre) -> In c cs -> ~ above t c p.
Proof.
  intros t p whole L U pre i st cs c E C Hc A. apply (above_up _ _ _ _ U) in A.
  assert (P : parent t c = Some i) by (apply (child_parent t L); rewrite C; apply in_or_app; auto).
  destruct (up_split _ _ _ U c i A P) as (l1 & l2 & E').
  assert (EP : l1 ++ [c] = pre).
  { apply (nodup_split _ i l2 pre st); rewrite <- app_assoc; cbn [app].
    - congruence.
    - rewrite <- E'. apply (up_nodup _ _ _ U). }
  subst pre. rewrite last_opt_app in C. cbn [olist] in C.
  pose proof (children_nodup t L i) as ND. rewrite C in ND. apply NoDup_remove_2 in ND. rewrite app_nil_r in ND. contradiction.
Qed.

Section Add.
Context (t t' : tree) (p : nat) (nm : list byte) (ats : list aval) (x : nat).
Context (G : grown t) (H : leaf_added t p nm ats x t').

Let L : linked t := wf_links _ (built_wf _ (grown_built _ G)).

Lemma leaf_doc : forall c d, node_of t c -> ~ above t c p -> doc_at t c d -> doc_at t' c d.
Proof.
  intros c d Hc NA D. apply (doc_stable t t' L d c D); [|exact Hc]. intros j Hj A.
  rewrite (la_children _ _ _ _ _ _ H). destruct (Nat.eqb_spec j p) as [->|]; [contradiction|]. rewrite app_nil_r.
  split; [reflexivity|]. apply (la_same _ _ _ _ _ _ H j Hj).
Qed.

Lemma zipped_add : forall fr st pre whole, up t p whole -> whole = pre ++ st -> pre <> [] -> zipped t (last_opt pre) st fr ->
  zipped t' (last_opt pre) st fr.
Proof.
  induction fr as [|f fr IH]; intros [|i st] pre whole U E NP Z; try exact Z. cbn [zipped] in *.
  destruct Z as (Hi & N & A & (cs & C & K) & Z). destruct (la_same _ _ _ _ _ _ H i Hi) as [EN EA].
  split; [apply (la_nodes _ _ _ _ _ _ H); auto|]. split; [congruence|]. split; [congruence|]. split.
  - exists cs. split.
    + rewrite (la_children _ _ _ _ _ _ H). destruct (Nat.eqb_spec i p) as [->|]; [|rewrite app_nil_r; exact C].
      exfalso. destruct (up_hd _ _ _ U) as [k EK]. pose proof (up_nodup _ _ _ U) as ND. rewrite EK in ND.
      destruct pre as [|a pre]; [congruence|]. rewrite EK in E. injection E as <- ->. inversion ND as [|? ? NI _]; subst.
      apply NI. apply in_or_app. cbn. auto.
    + assert (CH : forall c, In c cs -> node_of t c /\ ~ above t c p).
      { intros c Hc. split; [apply (children_used t L i); rewrite C; apply in_or_app; auto|].
        eapply (finished_aside t p whole L U pre i st cs c); eauto. }
      clear - K CH G H L. induction K as [|c d cs ds D K IHK]; constructor.
      * destruct (CH c (or_introl eq_refl)). apply leaf_doc; assumption.
      * apply IHK. intros y Hy. apply CH. cbn. auto.
  - specialize (IH st (pre ++ [i]) whole U). rewrite <- app_assoc, last_opt_app in IH. cbn [app] in IH. apply IH; auto. destruct pre; discriminate.
Qed.

Lemma zinv_add : forall st fr, zinv t (p :: st) fr -> zinv t' (x :: p :: st) (mkZ nm ats [] :: fr).
Proof.
  intros st fr [_ [i U] Z]. assert (i = p) by (destruct (up_hd _ _ _ U) as [k E]; congruence). subst i.
  assert (NX : ~ In x (p :: st)).
  { intros HI. apply (la_new _ _ _ _ _ _ H). destruct fr as [|f fr]; cbn in Z; [tauto|]. destruct Z as (Hp & _).
    apply (up_used _ _ _ L Hp U). exact HI. }
  constructor.
  - apply (la_grown _ _ _ _ _ _ H).
  - exists x. econstructor; [apply (la_parent _ _ _ _ _ _ H)|]. apply (up_same t _ x); [|exact U|exact NX]. apply (la_parents _ _ _ _ _ _ H).
  - cbn [zipped]. split; [apply (la_nodes _ _ _ _ _ _ H); auto|]. split; [apply (la_name _ _ _ _ _ _ H)|]. split; [apply (la_attrs _ _ _ _ _ _ H)|]. split.
    { exists []. split; [|constructor]. rewrite (la_children _ _ _ _ _ _ H), children_unused by apply (la_new _ _ _ _ _ _ H).
      destruct (Nat.eqb_spec x p) as [->|]; [|reflexivity]. exfalso. apply NX. cbn. auto. }
    destruct fr as [|f fr]; cbn [zipped] in Z; [tauto|]. cbn [zipped]. destruct Z as (Hp & N & A & (cs & C & K) & Z).
    destruct (la_same _ _ _ _ _ _ H p Hp) as [EN EA].
    split; [apply (la_nodes _ _ _ _ _ _ H); auto|]. split; [congruence|]. split; [congruence|]. split.
    + exists cs. cbn [olist] in *. rewrite app_nil_r in C. split; [rewrite (la_children _ _ _ _ _ _ H), Nat.eqb_refl, C; reflexivity|].
      assert (CH : forall c, In c cs -> node_of t c /\ ~ above t c p).
      { intros c Hc. split; [apply (children_used t L p); rewrite C; exact Hc|].
        apply (finished_aside t p (p :: st) L U [] p st cs c); [reflexivity| |exact Hc]. cbn. rewrite app_nil_r. exact C. }
      clear - K CH G H L. induction K as [|c d cs ds D K IHK]; constructor.
      * destruct (CH c (or_introl eq_refl)). apply leaf_doc; assumption.
      * apply IHK. intros y Hy. apply CH. cbn. auto.
    + change (Some p) with (last_opt [p]) in *. apply (zipped_add fr st [p] (p :: st)); auto. discriminate.
Qed.
End Add.

(** Finishing the innermost node. *)
Lemma zinv_close : forall t i q st f g fr, zinv t (i :: q :: st) (f :: g :: fr) ->
  zinv t (q :: st) (mkZ (z_name g) (z_ats g) (z_kids g ++ [DNode (z_name f) (z_ats f) (z_kids f)]) :: fr).
Proof.
  intros t i q st f g fr [G [j U] Z]. constructor; [exact G| |].
  - inversion U as [|? p' ? P U']; subst. exists p'. exact U'.
  - cbn [zipped] in *. destruct Z as (Hi & N & A & (cs & C & K) & Hq & N' & A' & (cs' & C' & K') & Z).
    cbn [olist] in *. rewrite app_nil_r in C. split; [exact Hq|]. split; [exact N'|]. split; [exact A'|]. split; [|exact Z].
    exists (cs' ++ [i]). split; [rewrite app_nil_r; exact C'|]. apply Forall2_app; [exact K'|]. constructor; [|constructor].
    constructor; [exact N|exact A|rewrite C; exact K].
Qed.

Lemma zinv_default : zinv tree_default [tr_root tree_default] [mkZ [] [] []].
Proof.
  constructor; [constructor|exists 0; constructor; reflexivity|]. cbn. unfold node_of. cbn. repeat split; auto. exists []. split; [reflexivity|constructor].
Qed.

Lemma zinv_doc : forall t i f, zinv t [i] [f] -> doc_at t i (DNode (z_name f) (z_ats f) (z_kids f)).
Proof.
  intros t i f [G _ Z]. cbn in Z. destruct Z as (Hi & N & A & (cs & C & K) & _). rewrite app_nil_r in C.
  constructor; [exact N|exact A|rewrite C; exact K].
Qed.

(** ** Adding a leaf *)

Lemma leaf_append_new : forall t p nm x t', grown t -> append_new p nm t = Some (x, t') -> leaf_added t p nm [] x t'.
Proof.
  intros t p nm x t' G H. assert (G' : grown t').
  { apply (grown_op t (OpAppendNew p nm)); [exact G|exact I|]. cbn. rewrite H. reflexivity. }
  destruct (C35_append_new _ _ _ _ _ (grown_built _ G) H) as ((NX & ND & R & S & N & A) & P & PS & C).
  constructor; assumption.
Qed.

Lemma leaf_attributes : forall t p nm ats x t1 ats' t2, leaf_added t p nm ats x t1 -> grown t2 ->
  only_attributes t1 t2 x -> attributes t2 x = Some ats' -> leaf_added t p nm ats' x t2.
Proof.
  intros t p nm ats x t1 ats' t2 [G NX ND R P PS C N A S] G2 (R2 & SN & P2 & C2 & _ & N2 & A2) AT.
  constructor; auto; try congruence.
  - intros i. rewrite (SN i). apply ND.
  - intros i Hi. rewrite P2. auto.
  - intros q. rewrite C2. apply C.
  - intros i Hi. assert (i <> x) by (intros ->; contradiction). rewrite N2, A2 by assumption. auto.
Qed.

Lemma upd_last : forall A (f : A -> A) l x, upd (length l) f (l ++ [x]) = l ++ [f x].
Proof. intros A f l x. induction l as [|y l IH]; [reflexivity|]. cbn. rewrite IH. reflexivity. Qed.

Lemma leaf_loader : forall t p nm ats sym names, grown t -> node_of t p -> intern (tr_names t) nm = (sym, names) ->
  let x := length (tr_arena t) in
  exists t', append x p (mkTree (tr_arena t ++ [fresh_slot sym ats]) names (tr_root t)) = Some t' /\ leaf_added t p nm ats x t'.
Proof.
  intros t p nm ats sym names G Hp E x. pose proof (built_wf _ (grown_built _ G)) as W.
  destruct (create_node nm t) as [x0 t0] eqn:C.
  assert (ET : x0 = x /\ t0 = mkTree (tr_arena t ++ [fresh_slot sym []]) names (tr_root t)).
  { unfold create_node in C. rewrite E in C. injection C as <- <-. auto. }
  destruct ET as [-> ET0].
  assert (G0 : grown t0) by (apply (grown_op t (OpCreate nm)); [exact G|exact I|]; cbn; rewrite C; reflexivity).
  set (t1 := mkTree (tr_arena t ++ [fresh_slot sym ats]) names (tr_root t)).
  assert (S1 : set_attributes x ats t0 = Some t1).
  { rewrite ET0. unfold set_attributes, used. cbn [tr_arena]. rewrite app_length. cbn [length].
    replace (x <? length (tr_arena t) + 1) with true by (symmetry; apply Nat.ltb_lt; subst x; lia).
    unfold with_arena. cbn [tr_arena tr_names tr_root]. subst x. rewrite upd_last. reflexivity. }
  assert (G1 : grown t1) by (apply (grown_op t0 (OpSetAttributes x ats)); [exact G0|exact I|exact S1]).
  destruct (C40_set_attributes t0 t1 (grown_built _ G0) x ats S1) as ((R1 & SN1 & P1 & C1 & _ & N1 & A1) & AT1).
  destruct (create_effect _ _ _ _ W C) as (W0 & EX & LA & R0 & P0 & C0 & _ & OLD & _ & N0 & A0).
  assert (ND0 : forall i, node_of t0 i <-> node_of t i \/ i = x) by (intros i; unfold node_of; rewrite LA, EX; lia).
  assert (NX : ~ node_of t x) by (unfold node_of; subst x; lia).
  destruct (append x p t1) as [t'|] eqn:AP.
  2:{ exfalso. apply (C35_append_panics t1 x p G1) in AP. destruct AP as [B|[B|B]].
      - apply B. apply SN1. apply ND0. auto.
      - apply B. apply SN1. apply ND0. auto.
      - apply (above_new t nm x t0 p W C Hp). clear - B P1. induction B; [constructor|]. econstructor; [rewrite <- P1; eassumption|assumption]. }
  exists t'. split; [reflexivity|].
  pose proof (wf_links _ (built_wf _ (grown_built _ G1))) as L1.
  destruct (append_effect t1 t' L1 x p AP) as (M & _ & _ & P2 & C2 & _).
  destruct (moved_contents _ _ M) as [R2 S2].
  assert (NT : forall i, node_of t' i <-> node_of t i \/ i = x).
  { intros i. rewrite <- ND0, <- (SN1 i). apply (moved_nodes _ _ M). }
  constructor; auto.
  - apply (grown_op t1 (OpAppend x p)); [exact G1|exact I|exact AP].
  - rewrite P2, Nat.eqb_refl. reflexivity.
  - intros i Hi. rewrite P2. destruct (Nat.eqb_spec i x); [contradiction|]. rewrite P1. apply P0.
  - intros q. rewrite C2, C1, C0. rewrite (new_notin t q x (wf_links _ W) NX). destruct (Nat.eqb q p); [reflexivity|rewrite app_nil_r; reflexivity].
  - destruct (S2 x) as [-> _]; [apply SN1, ND0; auto|]. rewrite N1. exact N0.
  - destruct (S2 x) as [_ ->]; [apply SN1, ND0; auto|]. exact AT1.
  - intros i Hi. destruct (S2 i) as [-> ->]; [apply SN1, ND0; auto|]. rewrite N1, A1 by (intros ->; contradiction). apply OLD. exact Hi.
Qed.

(** ** Loading *)
Section WithEnv.
Context {env : Env}.
Local Open Scope monad_scope.

Lemma collect_attr_load : forall acc s a, p_attrs s = Some a ->
  collect_attr acc s =
  match run_op (OLoad direct_loader) s with
  | (Ok (BAttr (Some v)), s1) => (Ok (inl (v :: acc)), s1)
  | (Ok (BAttr None), s1) => (Ok (inr (rev acc)), s1)
  | (Ok _, s1) => (Panic, s1)
  | (Err e, s1) => (Err e, s1)
  | (Panic, s1) => (Panic, s1)
  end.
Proof.
  intros acc s a Ha. cbn [run_op]. rewrite bind_gets, Ha. unfold collect_attr, iter_next, try_, bind, ret, throw.
  destruct (load_next direct_loader s) as [[[v|]|e|] s1]; reflexivity.
Qed.

Lemma collect_loop : forall n acc s a r s', p_attrs s = Some a -> p_health s = Running -> (a_rest a < N.of_nat n)%N ->
  nloop n collect_attr acc s = (r, s') ->
  match r with
  | Ok (inr l) => exists vs, l = rev acc ++ vs /\ loads s vs (Ok tt) s'
  | Ok (inl _) => False
  | Err e => exists vs, loads s vs (Err e) s'
  | Panic => exists vs, loads s vs Panic s'
  end.
Proof.
  induction n as [|n IH]; intros acc s a r s' Ha Hh Hn H; [lia|].
  cbn [nloop] in H. unfold bind in H. rewrite (collect_attr_load acc s a Ha) in H.
  destruct (run_op (OLoad direct_loader) s) as [[b|e|] s1] eqn:E.
  - destruct (C16_load_step aval (OLoad direct_loader) s a b s1 eq_refl Hh Ha E) as [Hh1 [(v & -> & Hge & a1 & Ha1 & _ & Hr)|(-> & H0 & ->)]].
    + specialize (IH (v :: acc) s1 a1 r s' Ha1 Hh1 ltac:(lia) H).
      destruct r as [[y|l]|e|]; [exact IH| | |].
      * destruct IH as (vs & -> & K). exists (v :: vs). split; [cbn; rewrite <- app_assoc; reflexivity|econstructor; eauto].
      * destruct IH as (vs & K). exists (v :: vs). econstructor; eauto.
      * destruct IH as (vs & K). exists (v :: vs). econstructor; eauto.
    + injection H as <- <-. exists []. split; [rewrite app_nil_r; reflexivity|constructor; exact E].
  - injection H as <- <-. exists []. apply loads_error. exact E.
  - injection H as <- <-. exists []. apply loads_panic. exact E.
Qed.

Lemma collect_attrs_loads : forall s a r s', p_attrs s = Some a -> p_health s = Running -> collect_attrs s = (r, s') ->
  match r with
  | Ok l => loads s l (Ok tt) s'
  | Err e => exists vs, loads s vs (Err e) s'
  | Panic => exists vs, loads s vs Panic s'
  end.
Proof.
  intros s a r s' Ha Hh H. unfold collect_attrs, get_attrs in H. unfold bind at 1 in H. rewrite bind_gets, Ha in H. unfold ret at 1 in H.
  unfold bind in H. rewrite mloop_nloop in H.
  destruct (nloop (Pos.to_nat (N.succ_pos (a_rest a))) collect_attr [] s) as [q s1] eqn:E.
  apply (collect_loop _ _ _ a) in E; [|exact Ha|exact Hh|rewrite positive_nat_N, N.succ_pos_spec; lia].
  destruct q as [[y|l]|e|]; [destruct E| | |]; injection H as <- <-; try exact E. destruct E as (vs & -> & K). exact K.
Qed.

Lemma loads_facts : forall s vs r s', loads s vs r s' -> r <> Panic -> forall k, tracked k s -> tracked k s' /\ (potential s' <= potential s)%N.
Proof.
  induction 1 as [s s' H|s v s1 vs r s' H K IH|s e s' H|s s' H]; intros NP k T.
  - destruct (tracked_step aval (OLoad direct_loader) k s _ s' T H) as (k' & E & T'); [discriminate|reflexivity|]. injection E as <-.
    apply potential_op in H; [|discriminate]. split; [exact T'|cbn in H; lia].
  - destruct (tracked_step aval (OLoad direct_loader) k s _ s1 T H) as (k' & E & T'); [discriminate|reflexivity|]. injection E as <-.
    apply potential_op in H; [|discriminate]. destruct (IH NP k T'). split; [assumption|cbn in H; lia].
  - destruct (tracked_step aval (OLoad direct_loader) k s _ s' T H) as (k' & E & T'); [discriminate|reflexivity|]. injection E as <-.
    apply potential_op in H; [|discriminate]. split; [exact T'|cbn in H; lia].
  - congruence.
Qed.

(** The items consumed so far. *)
Fixpoint fr_items (fr : list zframe) : list item :=
  match fr with
  | [] => []
  | [f] => forest_items (z_kids f)
  | f :: fr' => fr_items fr' ++ IStart (z_name f) (z_ats f) :: forest_items (z_kids f)
  end.

(** The last frame is that of the root. *)
Definition rooted (t : tree) (st : list nat) (fr : list zframe) : Prop :=
  last_opt st = Some (tr_root t) /\ exists ds, last_opt fr = Some (mkZ [] [] ds).

Lemma zipped_length : forall t fr st b, zipped t b st fr -> length st = length fr.
Proof. intros t. induction fr as [|f fr IH]; intros [|i st] b Z; cbn in *; try tauto. f_equal. eapply IH. apply Z. Qed.

Lemma last_opt_cons : forall A (x y : A) l, last_opt (x :: y :: l) = last_opt (y :: l).
Proof.
  intros A x y l. unfold last_opt. cbn [rev]. destruct (rev l ++ [y]) as [|z k] eqn:E; [destruct (rev l); discriminate|]. reflexivity.
Qed.

Lemma load_loop : forall n s t st fr k r s', zinv t st fr -> rooted t st fr -> length st = S (length (tk_open k)) ->
  tracked k s -> (potential s < N.of_nat n)%N -> nloop n load_step (t, st) s = (r, s') ->
  match r with
  | Ok (inr (t', f)) => exists items ds, reads s items (Ok f) s' /\ fr_items fr ++ items = forest_items ds /\
                          grown t' /\ doc_at t' (tr_root t') (DNode [] [] ds)
  | Ok (inl _) => False
  | Err e => exists items, reads s items (Err e) s'
  | Panic => exists items, reads s items Panic s'
  end.
Proof.
  induction n as [|n IH]; intros s t st fr k r s' Z RT LE T Hn H; [lia|].
  pose proof (zi_zip _ _ _ Z) as ZZ. pose proof (zipped_length _ _ _ _ ZZ) as LF.
  destruct st as [|p st]; [discriminate|]. destruct fr as [|f fr]; [discriminate|].
  cbn [nloop] in H. unfold bind at 1 in H. cbn [load_step] in H. unfold bind at 1 in H.
  destruct (run_op (@ONext aval) s) as [[b|e|] s1] eqn:E.
  2:{ injection H as <- <-. exists []. apply reads_error. exact E. }
  2:{ injection H as <- <-. exists []. apply reads_panic. exact E. }
  destruct (tracked_step aval ONext k s _ s1 T E) as (k1 & EK & T1); [discriminate|reflexivity|].
  pose proof (potential_op aval ONext s _ s1 E ltac:(discriminate)) as PO. cbn [ok_next] in PO.
  destruct b as [[nm| |ft]| | |]; cbn [tk_step] in EK; try discriminate.
  - (* a node starts *)
    injection EK as <-. destruct (C16_start_counts aval s nm s1 E) as (nd & a & _ & Ha & Hh & _ & _ & _).
    unfold loader_add_node in H. destruct (intern (tr_names t) nm) as [sym names] eqn:EI.
    unfold bind in H. destruct (collect_attrs s1) as [q s2] eqn:EC.
    apply (collect_attrs_loads s1 a q s2 Ha Hh) in EC. destruct q as [ats|e|].
    2:{ injection H as <- <-. destruct EC as (vs & K). exists []. eapply reads_attr_error; eauto. }
    2:{ injection H as <- <-. destruct EC as (vs & K). exists []. eapply reads_attr_panic; eauto. }
    assert (Hp : node_of t p) by apply ZZ.
    destruct (leaf_loader t p nm ats sym names (zi_grown _ _ _ Z) Hp EI) as (t2 & AP & LA). cbn zeta in AP. rewrite AP in H. cbn [ret] in H.
    destruct (loads_facts _ _ _ _ EC ltac:(discriminate) _ T1) as [T2 P2].
    pose proof (zinv_add t t2 p nm ats _ (zi_grown _ _ _ Z) LA st (f :: fr) Z) as Z2.
    assert (RT2 : rooted t2 (length (tr_arena t) :: p :: st) (mkZ nm ats [] :: f :: fr)).
    { destruct RT as [R1 R2]. unfold rooted. rewrite !last_opt_cons, (la_root _ _ _ _ _ _ LA). auto. }
    specialize (IH s2 t2 _ _ (tk_start nm k) r s' Z2 RT2).
    assert (LK : length (tk_open (tk_start nm k)) = S (length (tk_open k))) by (unfold tk_start; destruct (tk_open k); reflexivity).
    specialize (IH ltac:(cbn [length] in *; lia) T2 ltac:(lia) H).
    destruct r as [[y|[t' f']]|e|]; [exact IH| | |].
    + destruct IH as (items & ds & K & F & G & D). exists (IStart nm ats :: items), ds. split; [eapply reads_start; eauto|]. split; [|auto].
      rewrite <- F. cbn [fr_items z_name z_ats z_kids]. change (forest_items []) with (@nil item). rewrite <- app_assoc. reflexivity.
    + destruct IH as (items & K). exists (IStart nm ats :: items). eapply reads_start; eauto.
    + destruct IH as (items & K). exists (IStart nm ats :: items). eapply reads_start; eauto.
  - (* a node ends *)
    destruct (tk_open k) as [|g gs] eqn:EO; [discriminate|]. injection EK as <-. unfold ret in H at 1. cbn beta iota in H.
    destruct st as [|q st]; [cbn in LE; lia|]. destruct fr as [|f1 fr]; [discriminate|].
    pose proof (zinv_close _ _ _ _ _ _ _ Z) as Z2.
    assert (RT2 : rooted t (q :: st) (mkZ (z_name f1) (z_ats f1) (z_kids f1 ++ [DNode (z_name f) (z_ats f) (z_kids f)]) :: fr)).
    { destruct RT as [R1 [ds R2]]. rewrite last_opt_cons in R1, R2. split; [exact R1|].
      destruct fr as [|f2 fr]; [|rewrite last_opt_cons in *; eauto]. cbn in R2. injection R2 as ->. cbn. eauto. }
    specialize (IH s1 t _ _ (mkTracker gs (tk_top k)) r s' Z2 RT2 ltac:(cbn [length tk_open] in *; lia) T1 ltac:(lia) H).
    destruct r as [[y|[t' f']]|e|]; [exact IH| | |].
    + destruct IH as (items & ds & K & F & G & D). exists (IEnd :: items), ds. split; [eapply reads_end; eauto|]. split; [|auto].
      rewrite <- F. clear. destruct fr as [|f2 fr]; cbn [fr_items z_name z_ats z_kids]; unfold forest_items; rewrite flat_map_app; cbn [flat_map dnode_items]; rewrite ?app_nil_r; repeat (rewrite <- ?app_assoc; cbn [app]); reflexivity.
    + destruct IH as (items & K). exists (IEnd :: items). eapply reads_end; eauto.
    + destruct IH as (items & K). exists (IEnd :: items). eapply reads_end; eauto.
  - (* the document ends *)
    destruct (tk_open k) as [|g gs] eqn:EO; [|discriminate]. destruct st as [|q st]; [|cbn in LE; lia]. destruct fr as [|f1 fr]; [|discriminate].
    unfold ret in H. injection H as <- <-. destruct RT as [R1 [ds R2]]. cbn in R1, R2. injection R1 as <-. injection R2 as ->.
    exists [], ds. split; [constructor; exact E|]. split; [cbn; apply app_nil_r|]. split; [apply (zi_grown _ _ _ Z)|].
    apply (zinv_doc _ _ _ Z).
Qed.

(** Reading is deterministic. *)
Lemma loads_det : forall s vs r s', loads s vs r s' -> forall vs2 r2 s2, loads s vs2 r2 s2 -> vs2 = vs /\ r2 = r /\ s2 = s'.
Proof.
  induction 1 as [s s' H|s v s1 vs r s' H K IH|s e s' H|s s' H]; intros vs2 r2 s2 L2; inversion L2; subst;
    match goal with A : run_op ?o ?s = _, B : run_op ?o ?s = _ |- _ => rewrite A in B; inversion B; subst end; auto.
  match goal with L : loads _ vs0 _ _ |- _ => destruct (IH _ _ _ L) as (-> & -> & ->) end. auto.
Qed.
Lemma reads_det : forall s l o s', reads s l o s' -> forall l2 o2 s2, reads s l2 o2 s2 -> l2 = l /\ o2 = o /\ s2 = s'.
Proof.
  induction 1 as [s f s' H|s nm s1 ats s2 l o s' H LD R IH|s s1 l o s' H R IH|s e s' H|s s' H|s nm s1 ats e s' H LD|s nm s1 ats s' H LD];
    intros l2 o2 q R2; inversion R2; subst;
    match goal with A : run_op ?o ?s = _, B : run_op ?o ?s = _ |- _ => rewrite A in B; inversion B; subst end; auto;
    try match goal with A : loads ?s _ _ _, B : loads ?s _ _ _ |- _ => destruct (loads_det _ _ _ _ A _ _ _ B) as (? & ? & ?); subst end;
    try congruence.
  - match goal with L : reads ?x ?a ?b ?c, IH : forall _ _ _, reads ?x _ _ _ -> _ |- _ => destruct (IH _ _ _ L) as (-> & -> & ->) end. auto.
  - match goal with L : reads ?x ?a ?b ?c, IH : forall _ _ _, reads ?x _ _ _ -> _ |- _ => destruct (IH _ _ _ L) as (-> & -> & ->) end. auto.
  - match goal with A : Err _ = Err _ |- _ => inversion A; subst end. auto.
  - auto.
Qed.
End WithEnv.
