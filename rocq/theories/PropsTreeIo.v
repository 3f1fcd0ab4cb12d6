(** Properties of trees in files: C32 (round trip) and C33 (the loader agrees with the events). *)
Require Import Coq.Lists.List Coq.Arith.PeanoNat Coq.NArith.NArith Coq.ZArith.ZArith Coq.Bool.Bool Lia.
Require Import Coq.Init.Byte.
Require Import ZifyBool ZifyNat ZifyN.
Require Import Verif.LoadTyped.
Require Import Verif.Base Verif.BaseFacts Verif.Utf8 Verif.Types Verif.Io Verif.IoFacts Verif.Parser Verif.MonadFacts Verif.ParserSteps Verif.ParserShape Verif.ParserSafe Verif.SpecHist Verif.ParserHist Verif.Loaders Verif.Zlib Verif.Moves Verif.Spec Verif.SpecFacts Verif.ParserPos Verif.AttrLoad Verif.DocCursor Verif.FooterFacts Verif.DocTrace Verif.PropsDoc Verif.PropsSafety Verif.Writer Verif.WriterSpec Verif.WriterNodes Verif.WriterTotal Verif.PropsWriter Verif.PropsRound Verif.PropsSink Verif.Tree Verif.TreeFacts Verif.TreeSpec Verif.TreeLinks Verif.TreeOps Verif.TreePaths Verif.PropsTree Verif.PropsTreeEq Verif.TreeIo Verif.TreeIoSpec Verif.TreeWrite Verif.TreeLoad Verif.TreeRound Verif.Samples.
Import ListNotations.
Local Open Scope nat_scope.
Local Open Scope list_scope.
Ltac Zify.zify_post_hook ::= Z.div_mod_to_equations.

Section WithEnv.
Context {env : Env}.

(** ** C33 *)

(** What a client that reads everything sees, and what [load] returns then. *)
Definition load_matches (items : list item) (o : res perr (perr + footer)) (r : res load_error (tree * (perr + footer))) : Prop :=
  match o with
  | Ok f => exists t ds, r = Ok (t, f) /\ items = forest_items ds /\ grown t /\ doc_at t (tr_root t) (DNode [] [] ds)
  | Err e => r = Err (LoadParser e)
  | Panic => r = Panic
  end.

Lemma opened_tracked : forall data sched seeks seekable h p, opened data sched seeks seekable h p -> tracked tk_init p.
Proof.
  intros data sched seeks seekable h p Ho. destruct (opened_init _ _ _ _ _ _ Ho) as (_ & ES & _ & ET & _).
  unfold tracked, tk_init. rewrite ES, ET. cbn. repeat split; auto. congruence.
Qed.

(** On a parser just created, over any stream, with any schedule of I/O events and any
    warning handler, [load] does what a client does that reads everything: it makes the same
    calls (the final states are the same) and returns the same error, or the tree that the
    events describe.  In particular the assertions of the loader fail only where the parser
    itself panics. *)
Theorem C33_load_reads : forall data sched seeks seekable h p, opened data sched seeks seekable h p ->
  forall r s', load_tree p = (r, s') ->
  exists items o, reads p items o s' /\ load_matches items o r.
Proof.
  intros data sched seeks seekable h p Ho r s' H. destruct (opened_init _ _ _ _ _ _ Ho) as (EH & ES & EL & _).
  pose proof (opened_tracked _ _ _ _ _ _ Ho) as T.
  unfold load_tree, is_used in H. rewrite EL in H. unfold load_body in H. rewrite bind_gets in H. unfold bind in H. rewrite mloop_nloop in H.
  destruct (nloop _ load_step _ p) as [q s1] eqn:E.
  apply (load_loop _ _ _ _ [mkZ [] [] []] tk_init) in E; [|exact zinv_default| |reflexivity|exact T|].
  2:{ split; [reflexivity|]. exists []. reflexivity. }
  2:{ rewrite positive_nat_N, N.succ_pos_spec. unfold potential, hb. rewrite ES, EH. change (lenN (@nil started)) with 0%N. lia. }
  destruct q as [[y|[t f]]|e|]; [destruct E| | |]; injection H as <- <-.
  - destruct E as (items & ds & R & F & G & D). exists items, (Ok f). split; [exact R|]. exists t, ds. split; [reflexivity|]. split; [exact F|]. auto.
  - destruct E as (items & R). exists items, (Err e). split; [exact R|reflexivity].
  - destruct E as (items & R). exists items, Panic. split; [exact R|reflexivity].
Qed.

(** The other direction. *)
Theorem C33_reads_load : forall data sched seeks seekable h p, opened data sched seeks seekable h p ->
  forall items o s', reads p items o s' -> exists r, load_tree p = (r, s') /\ load_matches items o r.
Proof.
  intros data sched seeks seekable h p Ho items o s' R. destruct (load_tree p) as [r s1] eqn:E.
  destruct (C33_load_reads _ _ _ _ _ _ Ho r s1 E) as (items1 & o1 & R1 & M). destruct (reads_det _ _ _ _ R _ _ _ R1) as (-> & -> & ->). exists r. auto.
Qed.

(** The tree is determined by the items (see C38 for what [doc_at] determines). *)
Theorem C33_items_determine_tree : forall l1 l2, forest_items l1 = forest_items l2 -> l1 = l2.
Proof.
  intros l1 l2 E. destruct (forest_items_inj _ l1 l2 [] [] (Nat.le_refl _) I I) as [H _]; [rewrite !app_nil_r; exact E|exact H].
Qed.

(** A parser that has returned an event is refused and left alone. *)
Lemma used_stays : forall O (o : op O) s r s', run_op o s = (r, s') -> r <> Panic -> p_last s <> None -> p_last s' <> None.
Proof.
  intros O o s r s' H Hp Hl. apply run_op_shape in H; [|exact Hp]. destruct o as [|ld|ld|]; cbn [op_shape] in H.
  - destruct H as (r0 & s1 & E & H). assert (K : p_last s1 <> None).
    { apply next_event_shape in E; [|intros ->; exact H].
      destruct (p_health (set_attrs None s)).
      2,3: destruct E as [-> _]; exact Hl.
      destruct E as (_ & r1 & s2 & P & E). destruct r0 as [[nm| |f]|e|].
      - destruct E as (_ & -> & _). discriminate.
      - destruct E as (_ & ->). discriminate.
      - destruct E as (_ & E). pose proof (steps_elim _ _ _ _ _ _ read_footer_quiet E) as Q.
        destruct Q as [(_ & _ & _ & Q & _) _]; [destruct f; discriminate|]. rewrite Q. discriminate.
      - destruct E as (e0 & q & -> & _ & -> & _). apply impl_path_shape in P. cbn [p_last set_health].
        destruct P as [[(_ & _ & _ & Q & _) _]|(n & rest & s3 & _ & [(_ & _ & _ & Q1 & _) _] & [(_ & _ & _ & Q2 & _) _])].
        + rewrite Q. exact Hl.
        + rewrite Q2. change (p_last (pop s3)) with (p_last s3). rewrite Q1. exact Hl.
      - destruct E. }
    destruct r0 as [[nm| |f]|e|]; [| | | |destruct H].
    + destruct H as (_ & n & rest & _ & ->). exact K.
    + destruct H as (_ & ->). exact K.
    + destruct H as (_ & ->). exact K.
    + destruct H as (_ & ->). exact K.
  - destruct (p_attrs s).
    + destruct H as (r0 & E & H). apply load_next_ctl in E; [|intros ->; exact H]. destruct E as (_ & _ & ->). exact Hl.
    + destruct H as (_ & ->). exact Hl.
  - destruct (p_attrs s).
    + destruct H as (r0 & E & H). apply load_next_ctl in E; [|intros ->; exact H]. destruct E as (_ & _ & ->). exact Hl.
    + destruct H as (_ & ->). exact Hl.
  - destruct H as (r0 & E & H). assert (Hr : r0 <> Panic) by (intros ->; exact H).
    apply skip_shape in E; [|exact Hr]. destruct E as (n & rest & _ & E). apply m_skip_to_quieta in E; [|exact Hr].
    destruct E as [(_ & _ & _ & Q & _) _]. rewrite Q. discriminate.
Qed.

Lemma used_next : forall O s v s', run_op (@ONext O) s = (Ok v, s') -> p_last s' <> None.
Proof.
  intros O s v s' H. apply run_op_shape in H; [|discriminate]. cbn [op_shape] in H. destruct H as (r0 & s1 & E & H).
  apply next_event_shape in E; [|intros ->; exact H].
  destruct r0 as [ev|e|]; [|destruct H; discriminate|destruct H].
  destruct (p_health (set_attrs None s)).
  2,3: destruct E as [_ [=]].
  destruct E as (_ & r1 & s2 & P & E). destruct H as [_ H]. destruct ev as [nm| |f].
  - destruct E as (_ & -> & _). destruct H as (n & rest & _ & ->). discriminate.
  - destruct E as (_ & ->). subst s'. discriminate.
  - subst s1. destruct E as (_ & E). pose proof (steps_elim _ _ _ _ _ _ read_footer_quiet E) as Q.
    destruct Q as [(_ & _ & _ & Q & _) _]; [destruct f; discriminate|]. rewrite Q. discriminate.
Qed.

Lemma used_run : forall O (l : list (op O)) s rs s', run_ops l s = (rs, s') -> no_panic rs ->
  p_last s <> None \/ existsb ok_next (combine l rs) = true -> p_last s' <> None.
Proof.
  intros O l. induction l as [|o l IH]; intros s rs s' H Hn Hu.
  - injection H as <- <-. destruct Hu as [Hu|Hu]; [exact Hu|discriminate].
  - apply run_ops_cons_inv in H; [|exact Hn]. destruct H as (r & s1 & rs' & E1 & Hr & E2 & -> & Hn').
    apply (IH s1 rs' s' E2 Hn'). destruct Hu as [Hu|Hu].
    + left. exact (used_stays _ _ _ _ _ E1 Hr Hu).
    + cbn [combine existsb] in Hu. apply orb_true_iff in Hu. destruct Hu as [Hu|Hu]; [|right; exact Hu].
      left. destruct o; try discriminate. destruct r; try discriminate. exact (used_next _ _ _ _ E1).
Qed.

(** After any calls among which a [next_event] succeeded, [load] returns [BadParser] and
    neither reads anything nor changes the parser. *)
Theorem C33_used_parser_refused : forall O (l : list (op O)) p rs s, run_ops l p = (rs, s) -> no_panic rs ->
  existsb ok_next (combine l rs) = true -> load_tree s = (Err BadParser, s).
Proof.
  intros O l p rs s H Hn Hu. pose proof (used_run _ _ _ _ _ H Hn (or_intror Hu)) as K. unfold load_tree, is_used.
  destruct (p_last s); [reflexivity|congruence].
Qed.

(** It is never returned for a parser that has not been asked for an event. *)
Theorem C33_fresh_parser_accepted : forall data sched seeks seekable h p, opened data sched seeks seekable h p ->
  fst (load_tree p) <> Err BadParser.
Proof.
  intros data sched seeks seekable h p Ho. destruct (load_tree p) as [r s'] eqn:E. destruct (C33_load_reads _ _ _ _ _ _ Ho _ _ E) as (items & o & _ & M).
  cbn [fst]. intros ->. destruct o; cbn [load_matches] in M; [destruct M as (t & ds & [=] & _)|discriminate|discriminate].
Qed.

(** No input makes the loader panic (with the exception of C08: overflow checks and version
    7.5 or later). *)
Lemma loads_safe : forall s vs r s', loads s vs r s' -> inv s -> r <> Panic /\ inv s' /\ p_ver s' = p_ver s.
Proof.
  induction 1 as [s s' H|s v s1 vs r s' H H0 IH|s e s' H|s s' H]; intros Hi;
    pose proof (run_op_safe _ (OLoad direct_loader) (p_ver s) eq_refl s (conj Hi eq_refl)) as K; rewrite H in K; cbn in K;
    pose proof (run_op_fwd _ (OLoad direct_loader) s) as F; rewrite H in F; cbn in F.
  - split; [discriminate|]. split; [exact K|]. apply F. discriminate.
  - destruct (IH K) as (A & B & C). split; [exact A|]. split; [exact B|]. rewrite C. apply F. discriminate.
  - split; [discriminate|]. split; [exact K|]. apply F. discriminate.
  - destruct K as [K _]. discriminate.
Qed.

Lemma reads_safe : forall s l o s', reads s l o s' -> inv s -> ovf_checks = false \/ (p_ver s < 7500)%N -> o <> Panic.
Proof.
  induction 1 as [s f s' H|s nm s1 ats s2 l o s' H H0 H1 IH|s s1 l o s' H H1 IH|s e s' H|s s' H|s nm s1 ats e s' H H0|s nm s1 ats s' H H0]; intros Hi Hv;
    try discriminate;
    pose proof (run_op_safe _ (@ONext aval) (p_ver s) eq_refl s (conj Hi eq_refl)) as K; rewrite H in K; cbn in K;
    pose proof (run_op_fwd _ (@ONext aval) s) as F; rewrite H in F; cbn in F.
  - destruct (loads_safe _ _ _ _ H0 K) as (_ & B & C). apply IH; [exact B|]. rewrite C. destruct Hv as [Hv|Hv]; [auto|right].
    assert (E : p_ver s1 = p_ver s) by (apply F; discriminate). rewrite E. exact Hv.
  - apply IH; [exact K|]. destruct Hv as [Hv|Hv]; [auto|right].
    assert (E : p_ver s1 = p_ver s) by (apply F; discriminate). rewrite E. exact Hv.
  - destruct K as [_ [K1 K2]]. destruct Hv; [congruence|lia].
  - destruct (loads_safe _ _ _ _ H0 K) as (A & _). congruence.
Qed.

Theorem C33_no_panic : forall data sched seeks seekable h p, opened data sched seeks seekable h p ->
  (lenN data <= 2 ^ 63)%N -> ovf_checks = false \/ (p_ver p < 7500)%N -> fst (load_tree p) <> Panic.
Proof.
  intros data sched seeks seekable h p Ho Hl Hv. destruct (load_tree p) as [r s'] eqn:E. destruct (C33_load_reads _ _ _ _ _ _ Ho _ _ E) as (items & o & R & M).
  pose proof (reads_safe _ _ _ _ R (opened_inv _ _ _ _ _ _ Ho Hl) Hv) as K. cbn [fst]. intros ->.
  destruct o; cbn [load_matches] in M; [destruct M as (t & ds & [=] & _)|discriminate|congruence].
Qed.

(** A document written in the format is loaded as it is. *)
Theorem C33_document : forall ver ns f ext seekable p, zlib_roundtrip env -> opened_doc ver ns f ext seekable p ->
  seekable = true \/ forallb no_zip ns = true ->
  exists t s', load_tree p = (Ok (t, inr (footer_of ver f)), s') /\ rem_of s' = ext /\
    grown t /\ doc_at t (tr_root t) (DNode [] [] (map doc_of ns)).
Proof.
  intros ver ns f ext seekable p HZ Hd Hs. destruct (opened_doc_at _ _ _ _ _ _ Hd) as (HV & HF & H4 & Hc & Hk & _).
  destruct Hd as [_ _ _ (sched & seeks & h & _ & _ & _ & Ho)].
  destruct (opened_init _ _ _ _ _ _ Ho) as (_ & _ & _ & _ & _ & _ & _ & I8 & _).
  destruct (reads_cur ver _ f ext HV HF H4 HZ _ (c_init ns) p (Nat.le_refl _) Hc) as (s' & R & RM).
  - right. exact I8.
  - destruct Hs as [->|Hs]; [left; exact Hk|right]. unfold flat, c_init. cbn [c_rest c_frames c_attrs]. split; [|split; [constructor|exact I]].
    apply Forall_forall. apply forallb_forall. exact Hs.
  - destruct (C33_reads_load _ _ _ _ _ _ Ho _ _ _ R) as (r & E & t & ds & -> & EI & G & D). exists t, s'.
    split; [exact E|]. split; [exact RM|]. split; [exact G|]. unfold c_items, c_init, f_items, nodes_items in EI. cbn [c_rest c_frames] in EI.
    apply C33_items_determine_tree in EI. rewrite EI. exact D.
Qed.

(** ** C32 *)

Lemma root_name : forall t, built t -> name t (tr_root t) = Some [].
Proof.
  induction 1 as [|t o t' B IH H]; [reflexivity|]. pose proof (built_wf _ B) as W.
  pose proof (wf_root _ W) as U.
  assert (MV : moved t t' -> name t' (tr_root t') = Some []).
  { intros M. rewrite (mv_root _ _ M), (moved_name _ _ _ M). exact IH. }
  assert (CR : forall s x, creates t t' s x -> name t' (tr_root t') = Some []).
  { intros s x (_ & _ & R & OLD & _). rewrite R. destruct (OLD _ U) as [-> _]. exact IH. }
  assert (AT : forall i, only_attributes t t' i -> name t' (tr_root t') = Some []).
  { intros i (R & _ & _ & _ & _ & N & _). rewrite R, N. exact IH. }
  destruct o; cbn [run_top] in *.
  - injection H as <-. destruct (create_node name t) as [x t1] eqn:C. apply (CR name x).
    destruct (create_effect _ _ _ _ W C) as (_ & EX & LA & R & _ & _ & _ & OLD & _ & NM & AT').
    split; [unfold node_of; lia|]. split; [intros i; unfold node_of; cbn; lia|]. auto.
  - apply MV. apply (append_effect t t' (wf_links _ W) x p H).
  - apply MV. apply (prepend_effect t t' (wf_links _ W) x p H).
  - apply MV. apply (beside_effect t t' (wf_links _ W) true x y H).
  - apply MV. apply (beside_effect t t' (wf_links _ W) true x y H).
  - destruct (append_new p name t) as [[x t1]|] eqn:E; [|discriminate]. injection H as <-. apply (CR name x). apply (C35_append_new _ _ _ _ _ B E).
  - destruct (prepend_new p name t) as [[x t1]|] eqn:E; [|discriminate]. injection H as <-. apply (CR name x). apply (C35_prepend_new _ _ _ _ _ B E).
  - destruct (insert_new_after y name t) as [[x t1]|] eqn:E; [|discriminate]. injection H as <-. apply (CR name x). apply (C35_insert_new_after _ _ _ _ _ B E).
  - destruct (insert_new_before y name t) as [[x t1]|] eqn:E; [|discriminate]. injection H as <-. apply (CR name x). apply (C35_insert_new_before _ _ _ _ _ B E).
  - apply MV. apply (detach_effect t t' (wf_links _ W) x H).
  - destruct (C40_append_attribute t t' B _ _ H) as (O & _). apply (AT i O).
  - destruct (assign_attribute i k v t) as [[old t1]|] eqn:E; [|discriminate]. injection H as <-.
    destruct (C40_assign_attribute t t1 B _ _ _ _ E) as (O & _). apply (AT i O).
  - destruct (take_attributes i t) as [[l t1]|] eqn:E; [|discriminate]. injection H as <-.
    destruct (C40_take_attributes t t1 B _ _ E) as (O & _). apply (AT i O).
  - destruct (C40_set_attributes t t' B _ _ H) as (O & _). apply (AT i O).
Qed.

(** The document of a tree is typed if the tree is. *)
Lemma typed_doc : forall t, tree_typed t -> forall d i, doc_at t i d -> doc_typed d.
Proof.
  intros t (TN & TA). induction d as [nm ats ks IH] using dnode_ind'. intros i D. inversion D as [i0 nm0 ats0 ks0 HN HA HK]; subst.
  constructor; [eauto|apply Forall_forall; eauto|]. clear D HN HA. revert HK. generalize (children t i). induction ks as [|k ks IHk]; intros cs HK; [constructor|].
  inversion HK; subst. apply Forall_cons_iff in IH. destruct IH as [I1 I2]. constructor; eauto.
Qed.
Lemma plain_typed : forall d, doc_typed d ->
  Forall wcall_typed (calls_of (plain_node d)) /\ Forall wfaithful (calls_of (plain_node d)).
Proof.
  induction d as [nm ats ks IH] using dnode_ind'. intros D. inversion D as [nm0 ats0 ks0 HN HA HK]; subst. cbn [plain_node calls_of].
  assert (A : Forall acall_typed (map call_of (map (fun v => mkAttr v false) ats)) /\ Forall faithful (map call_of (map (fun v => mkAttr v false) ats))).
  { clear - HA. induction HA as [|v l V _ [I1 I2]]; [split; constructor|]. cbn [map]. split; constructor; auto; destruct v; cbn; auto. }
  assert (K : Forall wcall_typed (flat_map calls_of (map plain_node ks)) /\ Forall wfaithful (flat_map calls_of (map plain_node ks))).
  { clear D HN HA A. induction HK as [|k ks Hk _ IHk]; [split; constructor|]. apply Forall_cons_iff in IH. destruct IH as [I1 I2].
    destruct (I1 Hk). destruct (IHk I2). cbn [map flat_map]. split; apply Forall_app; auto. }
  destruct A, K. split; (constructor; [cbn; eauto|]); apply Forall_app; (split; [assumption|repeat constructor]).
Qed.

Lemma plain_zips : forall d, zips_ok (plain_node d).
Proof.
  fix IH 1. intros [nm ats ks]. cbn [plain_node]. apply zips_ok_eq. split.
  - induction ats as [|v l IHl]; [constructor|]. constructor; [|exact IHl]. unfold zip_ok. cbn. destruct (array_raw v); auto.
  - induction ks as [|k ks IHk]; [constructor|]. cbn [map]. constructor; [apply IH|exact IHk].
Qed.
Lemma plains_zips : forall l, Forall zips_ok (map plain_node l).
Proof. induction l as [|d l IH]; [constructor|]. constructor; [apply plain_zips|exact IH]. Qed.

Lemma nodes_of_all : forall ns, Forall zips_ok ns -> nodes_of (calls_of_all ns) = ns.
Proof.
  intros ns Z. unfold nodes_of. rewrite doc_calls_of_all by exact Z. unfold odoc_start.
  assert (X : forall l acc, fold_left (fun d n => add_node n d) l (mkOD acc []) = mkOD (acc ++ l) []).
  { induction l as [|n l IH]; intros acc; [rewrite app_nil_r; reflexivity|]. cbn [fold_left]. unfold add_node at 2. cbn [od_frames od_nodes]. rewrite IH, <- app_assoc. reflexivity. }
  rewrite X. reflexivity.
Qed.

(** The tree has been written: a writer for [ver] on the sink [k], [write_tree], [finalize]
    (with or without the final flush) with the footer [f]; all of them succeeded and left the
    sink [k']. *)
Definition tree_written (t : tree) (k : sink) (ver : N) (f : wfooter) (k' : sink) : Prop :=
  exists fl s0 s1 s2, new_writer k ver = Ok s0 /\ write_tree t s0 = (Ok tt, s1) /\ finalize fl f s1 = (Ok k', s2).

Lemma tree_finished : forall t k ver f k' ds ats, grown t -> Forall doc_typed ds -> doc_at t (tr_root t) (DNode [] ats ds) ->
  wfooter_typed f -> (lenN (k_data k') < pow2_64)%N -> tree_written t k ver f k' ->
  finished k ver (calls_of_all (map plain_node ds)) f k'.
Proof.
  intros t k ver f k' ds ats G T D TF LK (fl & s0 & s1 & s2 & E0 & E1 & E2).
  rewrite (write_tree_calls _ _ s0 G D) in E1. destruct (try_wcalls_ok _ _ _ E1) as (rs & ER & FR).
  constructor; [exact TF|exact LK|]. exists s1, fl, s2. split; [|exact E2].
  assert (TY : Forall wcall_typed (calls_of_all (map plain_node ds)) /\ Forall wfaithful (calls_of_all (map plain_node ds))).
  { clear - T. induction T as [|d ds K _ IH]; [split; constructor|].
    destruct (plain_typed _ K), IH. unfold calls_of_all in *. cbn [map flat_map]. split; apply Forall_app; auto. }
  destruct TY. constructor; auto. exists s0, rs. split; [exact E0|]. split; [exact ER|]. eapply Forall_impl; [|exact FR]. auto.
Qed.

Lemma round_trip_doc : forall t k ver f k' ds, zlib_roundtrip env -> grown t -> Forall doc_typed ds -> doc_at t (tr_root t) (DNode [] [] ds) -> wfooter_typed f -> standard f ->
  tree_written t k ver f k' -> (lenN (k_data k') < pow2_64)%N ->
  forall sched seeks seekable, nofail sched = true -> noseekfail seeks = true ->
  exists u, any_tree (mkStream (k_data k') 0 sched seeks) seekable = Ok (ver, u, inr (footer_of ver (foot_of ver (map plain_node ds) f))) /\
    grown u /\ doc_at u (tr_root u) (DNode [] [] ds) /\ tree_strict_eq t u = Some true.
Proof.
  intros t k ver f k' ds HZ G T D TF SF HW LK sched seeks seekable HN HK.
  pose proof (tree_finished _ _ _ _ _ _ _ G T D TF LK HW) as F.
  destruct (C26_opens _ _ _ _ _ sched seeks seekable (Some (fun _ => None)) F HN) as (p & HO & HV).
  destruct (finished_bytes _ _ _ _ _ F) as [HD (ext & E)]. rewrite (nodes_of_all _ (plains_zips ds)) in HD, E. rewrite (standard_doc _ _ _ SF) in E.
  destruct (C33_document ver (map plain_node ds) (foot_of ver (map plain_node ds) f) ext seekable p HZ) as (u & s' & EL & _ & GU & DU).
  - constructor; [exact HD|apply standard_foot; assumption|rewrite <- E; exact LK|].
    exists sched, seeks, (Some (fun _ => None)). rewrite <- E. split; [exact HN|]. split; [exact HK|]. split; [|exact HO]. cbn. auto.
  - right. apply forallb_forall. intros n Hn. apply in_map_iff in Hn. destruct Hn as (d & <- & _). apply plain_no_zip.
  - exists u. rewrite docs_plain in DU. destruct HO as (p0 & EO & ->). unfold any_tree. rewrite EO, EL.
    split; [|split; [exact GU|split; [exact DU|]]].
    + cbn [p_ver set_handler] in HV. rewrite HV. reflexivity.
    + destruct (C38_tree_strict_eq_partial t u _ _ G GU D DU) as (b & EB & B). rewrite EB. f_equal. apply B. reflexivity.
Qed.

(** Writing a tree and loading what was written gives an equal tree and the footer that was
    written, from a plain or a seekable reader, whatever the sizes of reads and writes.
    The proviso is that the root has no attributes: see the counterexample below. *)
Theorem C32_round_trip_partial : forall t k ver f k', zlib_roundtrip env ->   grown t -> tree_typed t -> attributes t (tr_root t) = Some [] -> wfooter_typed f -> standard f ->
  tree_written t k ver f k' -> (lenN (k_data k') < pow2_64)%N ->
  exists ds, doc_at t (tr_root t) (DNode [] [] ds) /\
  forall sched seeks seekable, nofail sched = true -> noseekfail seeks = true ->
  exists u, any_tree (mkStream (k_data k') 0 sched seeks) seekable = Ok (ver, u, inr (footer_of ver (foot_of ver (map plain_node ds) f))) /\
    grown u /\ tree_strict_eq t u = Some true.
Proof.
  intros t k ver f k' HZ G T HA TF SF HW LK.
  destruct (C38_document_exists t (tr_root t) G (wf_root _ (built_wf _ (grown_built _ G)))) as [d D].
  assert (ED : exists ds, d = DNode [] [] ds).
  { inversion D as [i0 nm0 ats0 ks0 HN1 HA1 HK1]; subst. rewrite (root_name _ (grown_built _ G)) in HN1. rewrite HA in HA1. injection HN1 as <-. injection HA1 as <-. eauto. }
  destruct ED as (ds & ->). exists ds. split; [exact D|]. intros sched seeks seekable HN HK.
  assert (TD : Forall doc_typed ds) by (pose proof (typed_doc _ T _ _ D) as X; inversion X; assumption).
  destruct (round_trip_doc _ _ _ _ _ _ HZ G TD D TF SF HW LK _ _ seekable HN HK) as (u & E & GU & _ & Q). eauto.
Qed.

(** [write_tree] makes exactly the calls that write the nodes below the root in document
    order, stopping at the first error, on any writer: the outcome and the sink are the same.
    Nodes that are not below the root, and the attributes of the root, have no influence. *)
Theorem C32_calls : forall t ats ds s, grown t -> doc_at t (tr_root t) (DNode [] ats ds) ->
  write_tree t s = try_wcalls (calls_of_all (map plain_node ds)) s.
Proof. intros t ats ds s G D. exact (write_tree_calls t _ s G D). Qed.

Lemma try_acalls_run : forall l s rs s', run_acalls l s = (rs, s') -> Forall (fun r => r = Ok tt) rs -> try_acalls l s = (Ok tt, s').
Proof.
  induction l as [|c l IH]; intros s rs s' H F; cbn [run_acalls try_acalls] in *.
  - injection H as _ <-. reflexivity.
  - unfold wbind. destruct (run_acall c s) as [[[]|e|] s1].
    + destruct (run_acalls l s1) as [rs' s2] eqn:E. injection H as <- <-. apply Forall_cons_iff in F. apply (IH _ _ _ E). apply F.
    + destruct (run_acalls l s1). injection H as <- <-. inversion F; discriminate.
    + injection H as <- <-. inversion F; discriminate.
Qed.
Lemma try_wcalls_runs : forall l s s', runs l s s' -> try_wcalls l s = (Ok tt, s').
Proof.
  induction l as [|c l IH]; intros s s' (rs & H & F); cbn [run_wcalls try_wcalls] in *.
  - injection H as _ <-. reflexivity.
  - destruct (run_wcall c s) as [rs1 s1] eqn:E1.
    assert (X : Forall (fun r => r = Ok tt) rs1 /\ exists rs2, run_wcalls l s1 = (rs2, s') /\ Forall (fun r => r = Ok tt) rs2).
    { destruct (existsb is_panic rs1) eqn:EP.
      - injection H as <- <-. rewrite (no_panics _ F) in EP. discriminate.
      - destruct (run_wcalls l s1) as [rs2 s2]. injection H as <- <-. apply Forall_app in F. split; [apply F|]. exists rs2. split; [reflexivity|apply F]. }
    destruct X as [X1 (rs2 & X2 & X3)]. unfold wbind. replace (try_wcall c s) with (Ok (E := werr) tt, s1); [apply IH; exists rs2; auto|].
    symmetry. destruct c as [nm acs|]; cbn [run_wcall try_wcall] in *.
    + unfold wbind. destruct (new_node nm s) as [[[]|e|] s2].
      * destruct (run_acalls acs s2) as [rs3 s3] eqn:E2. injection E1 as <- <-. apply Forall_cons_iff in X1. apply (try_acalls_run _ _ _ _ E2). apply X1.
      * injection E1 as <- <-. inversion X1; discriminate.
      * injection E1 as <- <-. inversion X1; discriminate.
    + destruct (close_node s) as [r s2]. injection E1 as <- <-. inversion X1; subst. reflexivity.
Qed.

(** Every tree whose document fits the format (names of at most 255 bytes, sizes and counts
    representable in the version) can be written, if the sink does not fail. *)
Theorem C32_can_be_written : forall t k ver f ats ds fl, wgood k -> (fl = true -> k_flush k = None) -> (lenN (k_data k) < pow2_63)%N ->
  grown t -> doc_at t (tr_root t) (DNode [] ats ds) -> doc_ok ver (map plain_node ds) -> wfooter_typed f ->
  (lenN (enc_finished ver (map plain_node ds) f) < pow2_63)%N ->
  exists s0 s1 k' s2, new_writer k ver = Ok s0 /\ write_tree t s0 = (Ok tt, s1) /\ finalize fl f s1 = (Ok k', s2) /\
    (lenN (k_data k') < pow2_64)%N /\ k_data k' = enc_finished ver (map plain_node ds) f ++ dropN (lenN (enc_finished ver (map plain_node ds) f)) (k_data k).
Proof.
  intros t k ver f ats ds fl GK HF LK G D HD TF LE.
  destruct (document_written k ver (map plain_node ds) f fl GK HF LK HD (plains_zips ds) TF LE) as (s0 & s1 & k' & s2 & E0 & E1 & E2 & F & EN).
  exists s0, s1, k', s2. split; [exact E0|]. split; [rewrite (C32_calls _ _ _ _ G D); apply try_wcalls_runs; exact E1|]. split; [exact E2|].
  split; [apply F|]. destruct F as [_ _ (s & fl' & s' & HW & HF')]. destruct (C27_finished _ _ _ _ _ _ _ _ HW HF') as (_ & X & _).
  fold (nodes_of (calls_of_all (map plain_node ds))) in X. rewrite EN in X. exact X.
Qed.

(** ** The macros *)

(** The document of a macro's argument. *)
Fixpoint mdoc (n : mnode) : dnode := match n with MNode nm ats ks => DNode nm ats (map mdoc ks) end.

Lemma try_wcalls_app : forall l1 l2 s, try_wcalls (l1 ++ l2) s = wbind (try_wcalls l1) (fun _ => try_wcalls l2) s.
Proof.
  induction l1 as [|c l1 IH]; intros l2 s; [reflexivity|]. cbn [try_wcalls app]. rewrite wbind_assoc. apply wbind_ext. intros _ s'. apply IH.
Qed.

Lemma wbind_eq : forall A B (m n : WM A) (f g : A -> WM B) s, m s = n s -> (forall a s', f a s' = g a s') -> wbind m f s = wbind n g s.
Proof. intros A B m n f g s E H. unfold wbind. rewrite E. destruct (n s) as [[a|e|] s']; auto. Qed.
Lemma wbind_tt : forall (m : WM unit) s, wbind m (fun _ => wret tt) s = m s.
Proof. intros m s. unfold wbind. destruct (m s) as [[[]|e|] s']; reflexivity. Qed.

Lemma write_mnode_calls : forall n s, write_mnode n s = try_wcalls (calls_of (plain_node (mdoc n))) s.
Proof.
  fix IH 1. intros [nm ats ks] s. cbn [write_mnode mdoc plain_node calls_of try_wcalls try_wcall].
  rewrite wbind_assoc. apply wbind_ext. intros _ s1. apply wbind_eq; [apply write_attributes_calls|]. intros _ s2. rewrite try_wcalls_app.
  apply wbind_eq.
  - clear s s1. revert s2. induction ks as [|k l IHl]; intros s; [reflexivity|]. cbn [map flat_map]. rewrite try_wcalls_app. apply wbind_eq; [apply IH|intros _ s'; apply IHl].
  - intros _ s3. cbn [try_wcalls try_wcall]. symmetry. apply wbind_tt.
Qed.

(** [write_v7400_binary!] makes the calls of its document. *)
Theorem C32_write_macro : forall l s, write_macro l s = try_wcalls (calls_of_all (map plain_node (map mdoc l))) s.
Proof.
  induction l as [|n l IH]; intros s; [reflexivity|]. cbn [write_macro map]. unfold calls_of_all. cbn [flat_map]. rewrite try_wcalls_app.
  apply wbind_eq; [apply write_mnode_calls|intros _ s'; apply IH].
Qed.

Lemma append_new_some : forall t p nm, grown t -> node_of t p -> exists x t', append_new p nm t = Some (x, t').
Proof.
  intros t p nm G Hp. pose proof (built_wf _ (grown_built _ G)) as W. destruct (create_node nm t) as [x t1] eqn:C.
  assert (G1 : grown t1) by (apply (grown_op t (OpCreate nm)); [exact G|exact I|cbn; rewrite C; reflexivity]).
  destruct (create_effect _ _ _ _ W C) as (_ & EX & LA & _ & P & _).
  destruct (append x p t1) as [t'|] eqn:E.
  - unfold append in E. exists x, t'. unfold append_new. rewrite C, E. reflexivity.
  - exfalso. apply (C35_append_panics t1 x p G1) in E. destruct E as [E|[E|E]]; [apply E; unfold node_of; lia|apply E; unfold node_of in *; lia|].
    assert (K : x = p \/ exists i, parent t1 i = Some x).
    { clear - E. induction E as [|i q PQ _ [<-|IH]]; eauto. }
    destruct K as [->|(i & K)]; [unfold node_of in Hp; lia|]. rewrite P in K.
    destruct (parent_used _ (wf_links _ W) _ _ K) as [_ K2]. unfold node_of in K2. lia.
Qed.

Lemma add_attributes_leaf : forall l t p nm ats x t1, leaf_added t p nm ats x t1 -> x <> tr_root t ->
  exists t2, add_attributes x l t1 = Some t2 /\ leaf_added t p nm (ats ++ l) x t2.
Proof.
  induction l as [|v l IH]; intros t p nm ats x t1 L NR; cbn [add_attributes].
  - exists t1. rewrite app_nil_r. auto.
  - pose proof (grown_built _ (la_grown _ _ _ _ _ _ L)) as B.
    destruct (append_attribute x v t1) as [t2|] eqn:E.
    + destruct (C40_append_attribute t1 t2 B x v E) as (O & _ & a & A1 & A2). rewrite (la_attrs _ _ _ _ _ _ L) in A1. injection A1 as <-.
      destruct (IH t p nm (ats ++ [v]) x t2) as (t3 & E3 & L3).
      * apply (leaf_attributes _ _ _ _ _ _ _ _ L); [|exact O|exact A2].
        apply (grown_op t1 (OpAppendAttribute x v)); [apply (la_grown _ _ _ _ _ _ L)|exact I|exact E].
      * exact NR.
      * exists t3. rewrite <- app_assoc in L3. auto.
    + exfalso. apply (C40_append_attribute_panics t1) in E. rewrite (la_root _ _ _ _ _ _ L) in E. destruct E as [E|E]; [auto|].
      apply E. apply (la_nodes _ _ _ _ _ _ L). auto.
Qed.

Lemma add_mnode_ok : forall n t p st f fr, zinv t (p :: st) (f :: fr) ->
  exists t', add_mnode p n t = Some t' /\ tr_root t' = tr_root t /\
    zinv t' (p :: st) (mkZ (z_name f) (z_ats f) (z_kids f ++ [mdoc n]) :: fr).
Proof.
  fix IH 1. intros [nm ats ks] t p st f fr Z. pose proof (zi_grown _ _ _ Z) as G. pose proof (built_wf _ (grown_built _ G)) as W.
  assert (Hp : node_of t p) by (apply (zi_zip _ _ _ Z)).
  destruct (append_new_some t p nm G Hp) as (x & t1 & E). cbn [add_mnode]. rewrite E. pose proof (leaf_append_new _ _ _ _ _ G E) as L.
  assert (NR : x <> tr_root t). { intros ->. apply (la_new _ _ _ _ _ _ L). apply (wf_root _ W). }
  destruct (add_attributes_leaf ats _ _ _ _ _ _ L NR) as (t2 & E2 & L2). rewrite E2. cbn [app] in L2.
  pose proof (zinv_add _ _ _ _ _ _ G L2 _ _ Z) as Z2.
  assert (K : forall l t2 g, zinv t2 (x :: p :: st) (g :: f :: fr) ->
    exists t', (fix all (l : list mnode) (t : tree) : option tree :=
                 match l with [] => Some t | k :: l' => match add_mnode x k t with Some t' => all l' t' | None => None end end) l t2 = Some t' /\
      tr_root t' = tr_root t2 /\ zinv t' (x :: p :: st) (mkZ (z_name g) (z_ats g) (z_kids g ++ map mdoc l) :: f :: fr)).
  { induction l as [|k l IHl]; intros u g Zu.
    - exists u. rewrite app_nil_r. destruct g. auto.
    - destruct (IH k _ _ _ _ _ Zu) as (u1 & E1 & R1 & Z1). rewrite E1. destruct (IHl _ _ Z1) as (u2 & E3 & R2 & Z3). exists u2.
      split; [exact E3|]. split; [congruence|]. cbn [z_name z_ats z_kids] in Z3. rewrite <- app_assoc in Z3. exact Z3. }
  destruct (K ks _ _ Z2) as (t3 & E3 & R3 & Z3). exists t3. split; [exact E3|]. split; [rewrite R3; apply (la_root _ _ _ _ _ _ L2)|].
  apply zinv_close in Z3. exact Z3.
Qed.

(** [tree_v7400!] builds the tree with its document; it never panics. *)
Theorem C32_tree_macro : forall l, exists t, tree_macro l = Some t /\ grown t /\ doc_at t (tr_root t) (DNode [] [] (map mdoc l)).
Proof.
  intros l. unfold tree_macro.
  assert (K : forall l t f, zinv t [tr_root t] [f] -> exists t', add_mnodes (tr_root t) l t = Some t' /\ tr_root t' = tr_root t /\
    zinv t' [tr_root t] [mkZ (z_name f) (z_ats f) (z_kids f ++ map mdoc l)]).
  { clear l. induction l as [|n l IH]; intros t f Z; cbn [add_mnodes].
    - exists t. rewrite app_nil_r. destruct f. auto.
    - destruct (add_mnode_ok n _ _ _ _ _ Z) as (t1 & E1 & R1 & Z1). rewrite E1. rewrite <- R1 in Z1 |- *.
      destruct (IH _ _ Z1) as (t2 & E2 & R2 & Z2). exists t2. split; [exact E2|]. split; [congruence|].
      cbn [z_name z_ats z_kids] in Z2. rewrite <- app_assoc in Z2. exact Z2. }
  destruct (K l _ _ zinv_default) as (t & E & R & Z). exists t. split; [exact E|]. split; [apply (zi_grown _ _ _ Z)|].
  rewrite R. apply zinv_doc in Z. exact Z.
Qed.

(** Both macros agree: writing the tree of one is writing with the other. *)
Theorem C32_macros_agree : forall l t s, tree_macro l = Some t -> write_tree t s = write_macro l s.
Proof.
  intros l t s E. destruct (C32_tree_macro l) as (t' & E' & G & D). rewrite E in E'. injection E' as <-.
  rewrite (C32_calls _ _ _ _ G D), C32_write_macro. reflexivity.
Qed.
End WithEnv.

(** ** Concrete cases *)
Module TreeIoCases.
Open Scope byte_scope.
Definition k0 : sink := mkSink [] 0 [WChunk 3; WIntr; WChunk 100] [] None.
Definition macro : list mnode :=
  [MNode ["A"] [VBool true; VI16 (-2); VString ["x"; "y"]] [MNode ["B"] [VArrI32 [1; -1]%Z; VBinary ["z"]] []; MNode ["B"] [] [MNode ["C"] [] []]];
   MNode ["A"] [VArrF64 []] []].
Definition mtree : tree := match tree_macro macro with Some t => t | None => tree_default end.
Lemma mtree_grown : grown mtree.
Proof. destruct (C32_tree_macro macro) as (t & E & G & _). unfold mtree. rewrite E. exact G. Qed.
Lemma typed_check : forall t n, length (tr_arena t) = n ->
  forallb (fun i => match name t i with Some nm => utf8_valid nm | None => true end) (seq 0 n) = true ->
  Forall (fun o => match o with Some ats => Forall val_ok ats | None => True end) (map (attributes t) (seq 0 n)) -> tree_typed t.
Proof.
  intros t n L T A. split.
  - intros i nm H. rewrite forallb_forall in T. specialize (T i). rewrite H in T. apply T. apply in_seq.
    destruct (Nat.lt_ge_cases i n) as [K|K]; [lia|]. rewrite <- L in K. apply nth_error_None in K. unfold name, name_sym in H. rewrite K in H. discriminate.
  - intros i ats v H HV. rewrite Forall_forall in A. specialize (A (Some ats)). cbn in A. rewrite Forall_forall in A. apply A; [|exact HV].
    rewrite <- H. apply in_map. apply in_seq.
    destruct (Nat.lt_ge_cases i n) as [K|K]; [lia|]. rewrite <- L in K. apply nth_error_None in K. unfold attributes in H. rewrite K in H. discriminate.
Qed.
Lemma mtree_typed : tree_typed mtree.
Proof.
  apply (typed_check mtree 6); [vm_compute; reflexivity|vm_compute; reflexivity|].
  assert (A : map (attributes mtree) (seq 0 6) =
    [Some []; Some [VBool true; VI16 (-2); VString ["x"; "y"]]; Some [VArrI32 [1; -1]%Z; VBinary ["z"]]; Some []; Some []; Some [VArrF64 []]]) by (vm_compute; reflexivity).
  rewrite A. repeat constructor; vm_compute; try reflexivity; try congruence.
Qed.

Definition written (t : tree) (ver : N) : option sink :=
  match new_writer k0 ver with
  | Ok s0 => match write_tree (env := release) t s0 with
             | (Ok _, s1) => match finalize true default_footer s1 with (Ok k', _) => Some k' | _ => None end
             | _ => None
             end
  | _ => None
  end.
Lemma written_written : forall t ver k', written t ver = Some k' -> tree_written (env := release) t k0 ver default_footer k'.
Proof.
  intros t ver k' H. unfold written in H. destruct (new_writer k0 ver) as [s0|e|] eqn:E0; try discriminate.
  destruct (write_tree t s0) as [[[]|e|] s1] eqn:E1; try discriminate. destruct (finalize true default_footer s1) as [[k|e|] s2] eqn:E2; try discriminate.
  injection H as <-. exists true, s0, s1, s2. auto.
Qed.
Definition k1 : sink := Eval vm_compute in match written mtree 7500 with Some k => k | None => k0 end.
Lemma k1_written : tree_written (env := release) mtree k0 7500 default_footer k1.
Proof. apply written_written. vm_compute. reflexivity. Qed.

(** The hypotheses of the round trip hold of this tree; so does the conclusion, by running the
    loader on a plain reader that delivers a byte, is interrupted, delivers 7 bytes, etc. *)
Example C32_ex : zlib_roundtrip release /\ grown mtree /\ tree_typed mtree /\ attributes mtree (tr_root mtree) = Some [] /\
  wfooter_typed default_footer /\ standard default_footer /\
  tree_written (env := release) mtree k0 7500 default_footer k1 /\ (lenN (k_data k1) < pow2_64)%N /\
  match any_tree (env := release) (mkStream (k_data k1) 0 [AChunk 1; AIntr; AChunk 7] []) false with
  | Ok (v, u, inr f) => v = 7500%N /\ tree_strict_eq mtree u = Some true /\ length (tr_arena u) = 6
  | _ => False
  end.
Proof.
  split; [apply stored_roundtrip|]. split; [exact mtree_grown|]. split; [exact mtree_typed|]. split; [vm_compute; reflexivity|].
  split; [repeat constructor|]. split; [exact default_standard|]. split; [exact k1_written|]. split; [vm_compute; reflexivity|]. vm_compute. auto.
Qed.

(** The claim without the proviso fails: attributes given to the root are lost. *)
Definition rooted_tree : tree := match set_attributes 0 [VBool true] mtree with Some t => t | None => mtree end.
Definition k2 : sink := Eval vm_compute in match written rooted_tree 7400 with Some k => k | None => k0 end.
Theorem C32_root_attributes_refuted : exists (env : Env) t k ver f k' u ft, zlib_roundtrip env /\ grown t /\
  tree_written t k ver f k' /\ standard f /\
  any_tree (mkStream (k_data k') 0 [] []) true = Ok (ver, u, inr ft) /\ tree_strict_eq t u = Some false.
Proof.
  assert (G : grown rooted_tree).
  { apply (grown_op mtree (OpSetAttributes 0 [VBool true])); [exact mtree_grown|exact I|]. cbn [run_top]. unfold rooted_tree.
    destruct (set_attributes 0 [VBool true] mtree) eqn:E; [reflexivity|]. vm_compute in E. discriminate. }
  assert (X : match any_tree (env := release) (mkStream (k_data k2) 0 [] []) true with
              | Ok (v, u, inr f) => v = 7400%N /\ tree_strict_eq rooted_tree u = Some false | _ => False end) by (vm_compute; auto).
  exists release, rooted_tree, k0, 7400%N, default_footer, k2.
  destruct (any_tree (env := release) (mkStream (k_data k2) 0 [] []) true) as [[[v u] [e|ft]]|e|]; try contradiction. destruct X as [-> X].
  exists u, ft. split; [apply stored_roundtrip|]. split; [exact G|].
  split; [apply written_written; vm_compute; reflexivity|]. split; [exact default_standard|]. split; [reflexivity|exact X].
Qed.

(** A cycle through the root: whatever the number of iterations, writing such a tree never
    succeeds. *)
Definition cyclic : tree :=
  match run_tops [OpAppendNew 0 ["a"]; OpAppendNew 1 ["b"]; OpAppendNew 2 ["c"]; OpInsertAfter 0 3] tree_default with Some t => t | None => tree_default end.
Theorem C32_cycle_refuted : exists t c, built t /\ first_child t (tr_root t) = Some c /\
  forall (env : Env) fuel s s', write_loop fuel t c s <> (Ok tt, s').
Proof.
  exists cyclic, 1. split; [|split; [vm_compute; reflexivity|]].
  { apply (run_tops_built [OpAppendNew 0 ["a"]; OpAppendNew 1 ["b"]; OpAppendNew 2 ["c"]; OpInsertAfter 0 3] tree_default); [constructor|vm_compute; reflexivity]. }
  intros env.
  assert (K : forall fuel c s s', In c [0; 1; 2; 3] -> write_loop fuel cyclic c s <> (Ok tt, s')).
  { induction fuel as [|fuel IH]; intros c s s' Hc H; [discriminate|]. cbn [write_loop] in H.
    destruct (name cyclic c) as [nm|]; [|discriminate]. destruct (attributes cyclic c) as [ats|]; [|discriminate].
    unfold wbind in H. destruct (new_node nm s) as [[[]|e|] s1]; try discriminate. destruct (write_attributes ats s1) as [[[]|e|] s2]; try discriminate.
    assert (N : forall s, exists d s', In d [0; 1; 2; 3] /\ (next_node (S (length (tr_arena cyclic))) cyclic true c s = (Ok (Some d), s') \/
      exists e s'', next_node (S (length (tr_arena cyclic))) cyclic true c s = (Err e, s'') \/ next_node (S (length (tr_arena cyclic))) cyclic true c s = (Panic, s''))).
    { intros s0. cbn [In] in Hc. destruct Hc as [<-|[<-|[<-|[<-|[]]]]].
      - exists 1, s0. split; [cbn; auto|]. left. reflexivity.
      - exists 2, s0. split; [cbn; auto|]. left. reflexivity.
      - exists 3, s0. split; [cbn; auto|]. left. reflexivity.
      - change (next_node _ cyclic true 3 s0) with (wbind close_node (fun _ => wret (Some 0)) s0).
        unfold wbind. destruct (close_node s0) as [[[]|e|] s3].
        + exists 0, s3. split; [cbn; auto|]. left. reflexivity.
        + exists 0, s3. split; [cbn; auto|]. right. eauto.
        + exists 0, s3. split; [cbn; auto|]. right. exists NoNodesToClose, s3. auto. }
    destruct (N s2) as (d & s3 & Hd & [E|(e & s4 & [E|E])]); rewrite E in H; [exact (IH _ _ _ Hd H)|discriminate|discriminate]. }
  intros fuel s s'. apply K. cbn. auto.
Qed.

(** What a client reads, and the tree, of a file cut in the middle: an error for both. *)
Definition opened_at (data : list byte) : option pstate := match any_parser (mkStream data 0 [AChunk 5] []) false with Ok p => Some p | _ => None end.
Example C33_ex : exists p, opened (firstn 150 (k_data k1)) [AChunk 5] [] false None p /\
  match load_tree (env := release) p with (Err (LoadParser e), _) => e_error e = EIo IoEof | _ => False end.
Proof.
  destruct (opened_at (firstn 150 (k_data k1))) as [p|] eqn:E; [|vm_compute in E; discriminate].
  exists (set_handler None p). split.
  - exists p. split; [|reflexivity]. unfold opened_at in E. destruct (any_parser _ false); congruence.
  - vm_compute in E. injection E as <-. vm_compute. reflexivity.
Qed.
Example C33_used_ex : exists p rs s, opened (k_data k1) [] [] true None p /\ run_ops (env := release) [@ONext aval; OSkip] p = (rs, s) /\ no_panic rs /\
  existsb ok_next (combine [@ONext aval; OSkip] rs) = true /\ load_tree (env := release) s = (Err BadParser, s).
Proof.
  destruct (any_parser (mkStream (k_data k1) 0 [] []) true) as [p|e|] eqn:E; try (vm_compute in E; discriminate).
  exists (set_handler None p). destruct (run_ops (env := release) [@ONext aval; OSkip] (set_handler None p)) as [rs s] eqn:R. exists rs, s.
  split; [exists p; auto|]. split; [reflexivity|].
  assert (X : no_panic rs /\ existsb ok_next (combine [@ONext aval; OSkip] rs) = true).
  { vm_compute in E. injection E as <-. vm_compute in R. injection R as <- <-. vm_compute. repeat constructor; discriminate. }
  destruct X as [X1 X2]. split; [exact X1|]. split; [exact X2|]. exact (C33_used_parser_refused _ _ _ _ _ R X1 X2).
Qed.
(** The sample document, compressed arrays included, from a seekable reader. *)
Example C33_document_ex : exists p, opened_doc (env := release) 7400 sample_nodes (sample_foot 7400) [x41; x42] true p.
Proof. eexists. apply PropsDoc.Cases.sample_opened. auto. Qed.
End TreeIoCases.

Print Assumptions C33_load_reads.
Print Assumptions C33_reads_load.
Print Assumptions C33_used_parser_refused.
Print Assumptions C33_no_panic.
Print Assumptions C33_document.
Print Assumptions C32_round_trip_partial.
Print Assumptions C32_can_be_written.
Print Assumptions C32_calls.
Print Assumptions C32_write_macro.
Print Assumptions C32_tree_macro.
Print Assumptions C32_macros_agree.
Print Assumptions TreeIoCases.C32_root_attributes_refuted.
Print Assumptions TreeIoCases.C32_cycle_refuted.
