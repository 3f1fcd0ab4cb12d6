(** Reading a whole document, and loading it as a tree. *)
Require Import Coq.Lists.List Coq.Arith.PeanoNat Coq.NArith.NArith Coq.ZArith.ZArith Coq.Bool.Bool Lia.
Require Import Coq.Init.Byte.
Require Import ZifyBool ZifyNat ZifyN.
Require Import Verif.Base Verif.BaseFacts Verif.Utf8 Verif.Types Verif.Io Verif.IoFacts Verif.Parser Verif.MonadFacts Verif.ParserSteps Verif.SpecHist Verif.ParserHist Verif.Loaders Verif.Zlib Verif.Moves Verif.Spec Verif.SpecFacts Verif.ParserPos Verif.AttrLoad Verif.DocCursor Verif.FooterFacts Verif.DocTrace Verif.PropsDoc Verif.PropsSafety Verif.Tree Verif.TreeSpec Verif.TreeIo Verif.TreeIoSpec Verif.TreeLoad.
Import ListNotations.
Local Open Scope nat_scope.
Local Open Scope list_scope.
Ltac Zify.zify_post_hook ::= Z.div_mod_to_equations.

(** ** Items determine the document *)
Definition no_start (l : list item) : Prop := match l with IStart _ _ :: _ => False | _ => True end.
Lemma forest_items_inj : forall n l1 l2 r1 r2, length (forest_items l1) <= n -> no_start r1 -> no_start r2 ->
  forest_items l1 ++ r1 = forest_items l2 ++ r2 -> l1 = l2 /\ r1 = r2.
Proof.
  induction n as [n IH] using (well_founded_ind Nat.lt_wf_0). intros l1 l2 r1 r2 L N1 N2 E.
  destruct l1 as [|[nm1 a1 k1] l1], l2 as [|[nm2 a2 k2] l2]; cbn [forest_items flat_map dnode_items app] in *.
  - auto.
  - subst r1. destruct N1.
  - subst r2. destruct N2.
  - injection E as -> -> E. rewrite <- !app_assoc in E. cbn [app length] in *. rewrite !app_length in L. cbn [length] in L.
    destruct (IH (length (flat_map dnode_items k1)) ltac:(lia) k1 k2 (IEnd :: forest_items l1 ++ r1) (IEnd :: forest_items l2 ++ r2)) as [-> E2]; try exact I; [reflexivity|exact E|].
    injection E2 as E2. destruct (IH (length (forest_items l1)) ltac:(unfold forest_items; lia) l1 l2 r1 r2) as [-> ->]; auto.
Qed.

(** ** The document of nodes in a file *)
Fixpoint doc_of (n : node) : dnode := match n with Node nm ats ks => DNode nm (map at_val ats) (map doc_of ks) end.
(** No array is compressed. *)
Fixpoint no_zip (n : node) : bool := match n with Node _ ats ks => forallb (fun a => negb (at_zip a)) ats && forallb no_zip ks end.

Lemma doc_plain : forall d, doc_of (plain_node d) = d.
Proof.
  fix IH 1. intros [nm ats ks]. cbn. f_equal.
  - rewrite map_map. cbn. apply map_id.
  - rewrite map_map. induction ks as [|k ks IHk]; [reflexivity|]. cbn. rewrite IH, IHk. reflexivity.
Qed.
Lemma docs_plain : forall l, map doc_of (map plain_node l) = l.
Proof. intros l. rewrite map_map. induction l as [|d l IH]; [reflexivity|]. cbn. rewrite doc_plain, IH. reflexivity. Qed.
Lemma plain_no_zip : forall d, no_zip (plain_node d) = true.
Proof.
  fix IH 1. intros [nm ats ks]. cbn. apply andb_true_iff. split.
  - induction ats as [|a l IHl]; [reflexivity|exact IHl].
  - induction ks as [|k ks IHk]; [reflexivity|]. cbn. rewrite IH, IHk. reflexivity.
Qed.

Section Round.
Context {env : Env} (ver lim : N) (f0 : foot) (ext : list byte).
Context (HV : u_ok (width ver) lim) (HF : foot_ok f0) (H4 : u_ok 4 ver) (HZ : zlib_roundtrip env).
Notation tail := (enc_footer ver f0 ++ ext).
Notation at_cur := (at_cur ver lim tail).

Definition nodes_items (l : list node) : list item := forest_items (map doc_of l).
Fixpoint f_items (rest : list node) (fs : list dframe) : list item :=
  match fs with [] => nodes_items rest | f :: t => nodes_items (d_rest f) ++ IEnd :: f_items rest t end.
Definition c_items (c : cursor) : list item := f_items (c_rest c) (c_frames c).

Definition flat (c : cursor) : Prop :=
  Forall (fun n => no_zip n = true) (c_rest c) /\
  Forall (fun f => Forall (fun n => no_zip n = true) (d_rest f)) (c_frames c) /\
  match c_attrs c with Some ats => forallb (fun a => negb (at_zip a)) ats = true | None => True end.

Lemma nodes_items_cons : forall k r, nodes_items (k :: r) = IStart (nd_name k) (map at_val (nd_attrs k)) :: nodes_items (nd_kids k) ++ IEnd :: nodes_items r.
Proof. intros [nm ats ks] r. unfold nodes_items. cbn. rewrite <- app_assoc. reflexivity. Qed.

Lemma flat_node : forall k, no_zip k = true -> forallb (fun a => negb (at_zip a)) (nd_attrs k) = true /\ Forall (fun n => no_zip n = true) (nd_kids k).
Proof. intros [nm ats ks] H. cbn in *. apply andb_true_iff in H as [H1 H2]. split; [exact H1|]. apply Forall_forall. apply forallb_forall. exact H2. Qed.

Lemma items_start : forall c k c', next_of ver c = DStart k c' ->
  c_items c = IStart (nd_name k) (map at_val (nd_attrs k)) :: c_items c' /\ c_attrs c' = Some (nd_attrs k) /\ (flat c -> flat c').
Proof.
  intros c k c' H. unfold next_of in H. unfold c_items, flat. destruct (c_frames c) as [|f fs] eqn:Ef.
  - destruct (c_rest c) as [|k0 r]; [discriminate|]. injection H as -> <-. cbn [c_rest c_frames f_items nd_of d_rest c_attrs]. split; [apply nodes_items_cons|]. split; [reflexivity|].
    intros (F1 & F2 & _). inversion F1; subst. destruct (flat_node k ltac:(assumption)). repeat (constructor; auto).
  - destruct (d_rest f) as [|k0 r] eqn:Er; [discriminate|]. injection H as -> <-. cbn [c_rest c_frames f_items nd_of d_rest d_take c_attrs]. rewrite Er, nodes_items_cons.
    cbn [app]. rewrite <- app_assoc. split; [reflexivity|]. split; [reflexivity|].
    intros (F1 & F2 & _). inversion F2 as [|? ? F3 F4]; subst. rewrite Er in F3. inversion F3; subst. destruct (flat_node k ltac:(assumption)). repeat (constructor; auto).
Qed.
Lemma items_end : forall c c', next_of ver c = DEnd c' -> c_items c = IEnd :: c_items c' /\ c_attrs c' = None /\ (flat c -> flat c').
Proof.
  intros c c' H. unfold next_of in H. unfold c_items, flat. destruct (c_frames c) as [|f fs] eqn:Ef.
  - destruct (c_rest c) as [|k0 r]; discriminate.
  - destruct (d_rest f) as [|k0 r] eqn:Er; [|discriminate]. injection H as <-. cbn [c_rest c_frames f_items c_attrs]. rewrite Er. split; [reflexivity|]. split; [reflexivity|].
    intros (F1 & F2 & _). inversion F2; subst. auto.
Qed.
Lemma items_fbx : forall c, next_of ver c = DFbx -> c_items c = [].
Proof.
  intros c H. unfold next_of in H. unfold c_items. destruct (c_frames c) as [|f fs] eqn:Ef.
  - destruct (c_rest c) as [|k0 r]; [reflexivity|discriminate].
  - destruct (d_rest f) as [|k0 r]; discriminate.
Qed.

Lemma loads_cur : forall ats c s, at_cur c s -> c_attrs c = Some ats -> load_ready s -> r_seekable (p_rd s) = true \/ flat c ->
  exists s', loads s (map at_val ats) (Ok tt) s' /\ at_cur (c_load c []) s' /\ load_ready s' /\ r_seekable (p_rd s') = r_seekable (p_rd s).
Proof.
  induction ats as [|a ats IH]; intros c s H Ha Hl Hf.
  - destruct (run_direct ver lim tail HZ false c s H Hl) as (s1 & E & _). rewrite Ha in E.
    pose proof (run_load ver lim tail HZ _ _ _ _ _ _ _ H Hl E) as K. rewrite Ha in K. destruct K as [_ ->].
    exists s. split; [apply loads_none; exact E|]. split; [|auto]. destruct c as [d r f a0]. cbn in Ha. subst a0. exact H.
  - destruct (run_direct ver lim tail HZ false c s H Hl) as (s1 & E & LR). rewrite Ha in E, LR.
    pose proof (run_load ver lim tail HZ _ _ _ _ _ _ _ H Hl E) as K. rewrite Ha in K. destruct K as (_ & H1 & (_ & _ & K3)).
    assert (L1 : load_ready s1).
    { destruct Hf as [Hs|(F1 & F2 & F3)]; [left; congruence|]. apply LR; [|exact Hl]. rewrite Ha in F3. cbn in F3. apply andb_true_iff in F3 as [F3 _]. destruct (at_zip a); [discriminate|reflexivity]. }
    destruct (IH (c_load c ats) s1 H1 eq_refl L1) as (s2 & R & H2 & L2 & K2).
    { destruct Hf as [Hs|(F1 & F2 & F3)]; [left; congruence|right]. rewrite Ha in F3. cbn in F3. apply andb_true_iff in F3 as [_ F3]. unfold flat. cbn. auto. }
    exists s2. split; [econstructor; eauto|]. split; [exact H2|]. split; [exact L2|congruence].
Qed.

Lemma reads_cur : forall n c s, length (c_items c) <= n -> at_cur c s -> caught_up ver c s -> r_seekable (p_rd s) = true \/ flat c ->
  exists s', reads s (c_items c) (Ok (inr (footer_of ver f0))) s' /\ rem_of s' = ext.
Proof.
  induction n as [n IH] using (well_founded_ind Nat.lt_wf_0). intros c s L H Hc Hf.
  destruct (next_of ver c) as [k c'|c'|] eqn:En.
  - destruct (items_start _ _ _ En) as (EI & EA & FL). rewrite EI in L. cbn in L.
    destruct (run_start ver lim tail HV aval c s k c' H Hc En) as (s1 & E & H1 & P1 & _ & K1 & _).
    assert (L1 : load_ready s1).
    { right. pose proof (ac_where _ _ _ _ _ H1) as W. rewrite EA in W. destruct W as (_ & a & junk & W1 & W2 & W3 & W4 & W5). rewrite W1, W3.
      destruct (c_after_start ver tail _ _ _ En) as (_ & _ & CP & _). rewrite CP, P1 in W5. lia. }
    assert (F1 : r_seekable (p_rd s1) = true \/ flat c') by (destruct Hf; [left; congruence|right; auto]).
    destruct (loads_cur (nd_attrs k) c' s1 H1 EA L1 F1) as (s2 & R & H2 & L2 & K2).
    assert (C2 : caught_up ver (c_load c' []) s2).
    { destruct L2 as [L2|L2]; [left; exact L2|right]. pose proof (ac_where _ _ _ _ _ H2) as W. cbn [c_load c_attrs] in W.
      destruct W as (_ & a & junk & W1 & W2 & W3 & W4 & W5). rewrite W1 in L2. change (enc_attrs []) with (@nil byte) in W5. change (lenN (@nil byte)) with 0%N in W5.
      change (c_pos ver (c_load c' [])) with (c_pos ver c') in *. lia. }
    destruct (IH (length (c_items c')) ltac:(lia) (c_load c' []) s2) as (s' & RR & RE); [reflexivity|exact H2|exact C2| |].
    { destruct F1 as [F1|(F2 & F3 & _)]; [left; congruence|right]. unfold flat. cbn. auto. }
    exists s'. split; [|exact RE]. rewrite EI. eapply reads_start; eauto.
  - destruct (items_end _ _ En) as (EI & EA & FL). rewrite EI in L. cbn in L.
    destruct (run_end ver lim tail aval c s c' H Hc En) as (s1 & E & H1 & (_ & _ & K1)).
    assert (C1 : caught_up ver c' s1).
    { right. pose proof (ac_where _ _ _ _ _ H1) as W. rewrite EA in W. apply W. }
    destruct (IH (length (c_items c')) ltac:(lia) c' s1) as (s' & RR & RE); [lia|exact H1|exact C1| |].
    { destruct Hf; [left; congruence|right; auto]. }
    exists s'. split; [|exact RE]. rewrite EI. eapply reads_end; eauto.
  - rewrite (items_fbx _ En). destruct (run_footer ver lim f0 ext HF H4 aval c s H Hc En) as (s1 & E & _ & _ & _ & _ & R & _).
    exists s1. split; [apply reads_fbx; exact E|exact R].
Qed.
End Round.
