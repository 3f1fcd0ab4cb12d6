(** C04, C05, C06, C07, C13: positions, nesting, sticky errors, end of document. *)
Require Import Coq.Lists.List Coq.NArith.NArith Coq.ZArith.ZArith Coq.Bool.Bool Coq.micromega.Lia.
Require Import ZifyBool ZifyNat ZifyN.
Require Import Coq.Init.Byte.
Require Import Verif.Base Verif.BaseFacts Verif.Utf8 Verif.Types Verif.Io Verif.IoFacts Verif.Parser Verif.MonadFacts Verif.ParserSteps Verif.ParserShape Verif.SpecHist Verif.ParserHist Verif.ParserPos Verif.Loaders Verif.Spec Verif.Zlib Verif.Samples.
Import ListNotations.
Ltac Zify.zify_post_hook ::= Z.div_mod_to_equations.

(** A history without failed [next_event] and, for every history, its part before the first
    failed [next_event] and the rest. *)
Fixpoint before_failure {O} (h : list (call O)) : list (call O) :=
  match h with
  | [] => []
  | c :: t => if failed_next c then [] else c :: before_failure t
  end.
Fixpoint after_failure {O} (h : list (call O)) : list (call O) :=
  match h with
  | [] => []
  | c :: t => if failed_next c then c :: t else after_failure t
  end.

Section WithEnv.
Context {env : Env}.

(** ** The position never panics *)
Definition topok (s : pstate) : Prop := p_stack s <> [] -> (1 <= p_top s)%N.
Definition keeps_top (s s' : pstate) : Prop := topok s -> topok s'.

Lemma keeps_quiet : forall s s', quiet s s' -> keeps_top s s'.
Proof. intros s s' (_ & _ & A & _ & B & _). unfold keeps_top, topok. rewrite A, B. auto. Qed.
Lemma keeps_pop : forall s, keeps_top s (pop s).
Proof. intros s H. unfold topok, pop in *. cbn. destruct (p_stack s); cbn; auto. intros. apply H. discriminate. Qed.
Lemma keeps_push : forall s n, keeps_top s (push n (count_child s)).
Proof.
  intros s n H. unfold topok, push, count_child in *. destruct (p_stack s) eqn:E; cbn; intros; [lia|].
  apply H. discriminate.
Qed.
Lemma keeps_ctl : forall s s', p_stack s' = p_stack s -> p_top s' = p_top s -> keeps_top s s'.
Proof. intros s s' A B. unfold keeps_top, topok. rewrite A, B. auto. Qed.

Lemma impl_keeps : forall s r s', impl_path s r s' -> keeps_top s s'.
Proof.
  intros s r s' H Ht. apply impl_path_shape in H.
  assert (P : popped s s' -> topok s').
  { intros (n & rest & s1 & _ & Q & Q2). eapply keeps_quiet; [apply Q2|]. apply keeps_pop.
    eapply keeps_quiet; [apply Q | exact Ht]. }
  destruct r as [[| |]|e|]; [| | | |tauto].
  - destruct H as (n & s1 & Q & -> & _). apply keeps_push. eapply keeps_quiet; [apply Q | exact Ht].
  - auto.
  - destruct H as [_ Q]. eapply keeps_quiet; [apply Q | exact Ht].
  - destruct H as [Q|H]; [|auto]. eapply keeps_quiet; [apply Q | exact Ht].
Qed.

Lemma next_keeps : forall s r s', next_event s = (r, s') -> r <> Panic -> keeps_top s s'.
Proof.
  intros s r s' H Hp Ht. apply next_event_shape in H; [|exact Hp]. destruct (p_health s).
  - destruct H as (_ & r0 & s1 & Hpath & H). apply impl_keeps in Hpath. specialize (Hpath Ht).
    destruct r as [[n| |f]|e|]; [| | | |tauto].
    + destruct H as (_ & -> & _). exact Hpath.
    + destruct H as (_ & ->). exact Hpath.
    + destruct H as (_ & H).
      assert (Q3 := steps_elim _ _ _ _ _ _ read_footer_quiet H).
      eapply keeps_quiet; [apply Q3; destruct f; discriminate|]. exact Hpath.
    + destruct H as (e0 & p & _ & _ & -> & _). exact Hpath.
  - destruct H as [-> _]. exact Ht.
  - destruct H as [-> _]. exact Ht.
Qed.

Lemma run_op_keeps : forall O (o : op O) s r s', run_op o s = (r, s') -> r <> Panic -> keeps_top s s'.
Proof.
  intros O o s r s' H Hp Ht. apply run_op_shape in H; [|exact Hp]. destruct o as [|l|l|]; cbn [op_shape] in H.
  - destruct H as (r0 & s1 & Hn & H). assert (r0 <> Panic) by (intros ->; exact H).
    apply next_keeps in Hn; [|assumption]. specialize (Hn Ht).
    destruct r0 as [e|e|]; [| |tauto].
    + destruct H as [_ H]. destruct e; [destruct H as (n & rest & _ & ->)| |]; try subst; exact Hn.
    + destruct H as [_ ->]. exact Hn.
  - destruct (p_attrs s); [|destruct H as [_ ->]; exact Ht].
    destruct H as (r0 & Hl & H). apply load_next_ctl in Hl; [|intros ->; exact H].
    eapply keeps_ctl; [apply Hl | apply Hl | exact Ht].
  - destruct (p_attrs s); [|destruct H as [_ ->]; exact Ht].
    destruct H as (r0 & Hl & H). apply load_next_ctl in Hl; [|intros ->; exact H].
    eapply keeps_ctl; [apply Hl | apply Hl | exact Ht].
  - destruct H as (r0 & Hs & H). assert (Hr0 : r0 <> Panic) by (intros ->; exact H).
    apply skip_shape in Hs; [|exact Hr0]. destruct Hs as (n & rest & Es & Hm).
    apply m_skip_to_quieta in Hm; [|exact Hr0]. eapply keeps_quiet; [apply Hm|].
    apply (keeps_pop (set_attrs None s)). exact Ht.
Qed.

Lemma run_ops_keeps : forall O (l : list (op O)) s rs s', run_ops l s = (rs, s') -> no_panic rs -> keeps_top s s'.
Proof.
  intros O l. induction l as [|o l IH]; intros s rs s' H Hn.
  - injection H as <- <-. intros Ht. exact Ht.
  - apply run_ops_cons_inv in H; [|exact Hn]. destruct H as (r & s1 & rs' & E1 & Hr & E2 & -> & Hn').
    intros Ht. eapply IH; eauto. eapply run_op_keeps; eauto.
Qed.

Lemma topok_position : forall s, topok s -> exists p, position_of s = Some p /\ byte_pos p = rpos s.
Proof.
  intros s H. unfold position_of. destruct (p_stack s) as [|n t] eqn:E.
  - eexists. split; [reflexivity|]. reflexivity.
  - assert (1 <= p_top s)%N by (apply H; congruence).
    destruct (p_top s =? 0)%N eqn:E0; [apply N.eqb_eq in E0; lia|].
    eexists. split; [reflexivity|]. reflexivity.
Qed.

Lemma opened_topok : forall data sched seeks seekable h p, opened data sched seeks seekable h p -> topok p.
Proof. intros. apply opened_init in H. destruct H as (_ & E & _). intros X. congruence. Qed.

(** ** C04 *)

(** Seekable readers: after any history the reported position is the true offset of the
    stream, and what is left to read is exactly the document from there on. *)
Theorem C04_position_is_offset_seekable :
  forall O data sched seeks h p (l : list (op O)) rs p',
    opened data sched seeks true h p -> run_ops l p = (rs, p') -> no_panic rs ->
    exists pos, position_of p' = Some pos /\
      byte_pos pos = s_off (r_stream (p_rd p')) /\
      s_rem (r_stream (p_rd p')) = dropN (byte_pos pos) data.
Proof.
  intros O data sched seeks h p l rs p' Ho H Hn.
  destruct (topok_position p') as (pos & E1 & E2). { eapply run_ops_keeps; eauto. eapply opened_topok; eauto. }
  exists pos. split; [exact E1|]. apply opened_init in Ho.
  destruct Ho as (_ & _ & _ & _ & _ & _ & _ & R1 & R2 & R3 & R4 & _).
  apply run_ops_fwd in H; [|exact Hn]. destruct H as (_ & _ & _ & d & q & (M1 & M2 & M3 & M4) & L & S).
  specialize (S R2). subst q. rewrite E2. unfold rpos. rewrite M3, M2, M1, R1, R3, R4, dropN_dropN. auto.
Qed.

(** Plain readers: the position never exceeds the true offset.  Missing: equality, which is
    false (see the witness below) because skipping through a plain reader does not advance
    the cached position. *)
Theorem C04_position_is_offset_plain_partial :
  forall O data sched seeks h p (l : list (op O)) rs p',
    opened data sched seeks false h p -> run_ops l p = (rs, p') -> no_panic rs ->
    exists pos, position_of p' = Some pos /\
      (27 <= byte_pos pos <= s_off (r_stream (p_rd p')))%N /\
      s_rem (r_stream (p_rd p')) = dropN (s_off (r_stream (p_rd p'))) data.
Proof.
  intros O data sched seeks h p l rs p' Ho H Hn.
  destruct (topok_position p') as (pos & E1 & E2). { eapply run_ops_keeps; eauto. eapply opened_topok; eauto. }
  exists pos. split; [exact E1|]. apply opened_init in Ho.
  destruct Ho as (_ & _ & _ & _ & _ & _ & _ & R1 & R2 & R3 & R4 & _).
  apply run_ops_fwd in H; [|exact Hn]. destruct H as (_ & _ & _ & d & q & (M1 & M2 & M3 & M4) & L & S).
  rewrite E2. unfold rpos. rewrite M3, M2, M1, R1, R3, R4, dropN_dropN. split; [lia | auto].
Qed.

(** ** C05 *)

Lemma not_running_stays : forall O (o : op O) s r s', p_health s <> Running ->
  run_op o s = (r, s') -> r <> Panic -> p_health s' <> Running /\ (is_next o = true -> exists e, r = Err e).
Proof.
  intros O o s r s' Hh H Hp. apply run_op_shape in H; [|exact Hp]. destruct o as [|l|l|]; cbn [op_shape is_next] in *.
  - destruct H as (r0 & s1 & Hn & H). assert (r0 <> Panic) by (intros ->; exact H).
    apply next_event_shape in Hn; [|assumption]. cbn [p_health set_attrs] in Hn.
    destruct (p_health s) eqn:E; [congruence| |]; destruct Hn as [-> ->]; destruct H as [-> ->]; cbn; rewrite E;
      split; try discriminate; eauto.
  - split; [|discriminate]. destruct (p_attrs s); [|destruct H as [_ ->]; exact Hh].
    destruct H as (r0 & Hl & H). apply load_next_shape in Hl; [|intros ->; exact H].
    destruct (p_health s) eqn:E; [congruence| |]; destruct Hl as [-> _]; congruence.
  - split; [|discriminate]. destruct (p_attrs s); [|destruct H as [_ ->]; exact Hh].
    destruct H as (r0 & Hl & H). apply load_next_shape in Hl; [|intros ->; exact H].
    destruct (p_health s) eqn:E; [congruence| |]; destruct Hl as [-> _]; congruence.
  - split; [|discriminate]. destruct H as (r0 & Hs & H). assert (Hr0 : r0 <> Panic) by (intros ->; exact H).
    apply skip_shape in Hs; [|exact Hr0]. destruct Hs as (n & rest & Es & Hm).
    apply m_skip_to_quieta in Hm; [|exact Hr0]. destruct Hm as [(_ & E & _) _]. rewrite E. exact Hh.
Qed.

Lemma not_running_run : forall O (l : list (op O)) s rs s', p_health s <> Running ->
  run_ops l s = (rs, s') -> no_panic rs -> existsb ok_next (combine l rs) = false.
Proof.
  intros O l. induction l as [|o l IH]; intros s rs s' Hh H Hn; [reflexivity|].
  apply run_ops_cons_inv in H; [|exact Hn]. destruct H as (r & s1 & rs' & E1 & Hr & E2 & -> & Hn').
  destruct (not_running_stays _ _ _ _ _ Hh E1 Hr) as [Hh1 Hx]. cbn [combine existsb].
  rewrite (IH _ _ _ Hh1 E2 Hn'), orb_false_r.
  destruct o; try reflexivity. destruct (Hx eq_refl) as [e ->]. reflexivity.
Qed.

Lemma failed_not_running : forall O s e s', run_op (@ONext O) s = (Err e, s') -> p_health s' <> Running.
Proof.
  intros O s e s' H. apply run_op_shape in H; [|discriminate]. destruct H as (r0 & s1 & Hn & H).
  destruct r0 as [v|e0|]; [destruct H as [[=] _]| |tauto]. destruct H as [_ ->].
  apply next_event_shape in Hn; [|discriminate]. cbn [p_health set_attrs] in Hn.
  destruct (p_health s) eqn:E.
  - destruct Hn as (_ & _ & s2 & _ & e1 & p & _ & _ & -> & _). discriminate.
  - destruct Hn as [-> _]. cbn. congruence.
  - destruct Hn as [-> _]. cbn. congruence.
Qed.

Lemma nested_from : forall O (l : list (op O)) t s rs s', tracked t s ->
  run_ops l s = (rs, s') -> no_panic rs ->
  (exists t', tk_run t (before_failure (combine l rs)) = Some t') /\
  existsb ok_next (after_failure (combine l rs)) = false.
Proof.
  intros O l. induction l as [|o l IH]; intros t s rs s' Ht H Hn; [cbn; eauto|].
  apply run_ops_cons_inv in H; [|exact Hn]. destruct H as (r & s1 & rs' & E1 & Hr & E2 & -> & Hn').
  cbn [combine before_failure after_failure]. destruct (failed_next (o, r)) eqn:Ef.
  - split; [cbn; eauto|]. destruct o; cbn in Ef; try discriminate. destruct r as [v|e|]; try discriminate.
    cbn [existsb ok_next orb]. eapply not_running_run; [|exact E2|exact Hn'].
    eapply failed_not_running; eauto.
  - destruct (tracked_step _ _ _ _ _ _ Ht E1 Hr Ef) as (t1 & Et1 & Ht1).
    destruct (IH _ _ _ _ Ht1 E2 Hn') as [(t2 & Et2) Hx]. split; [|exact Hx].
    exists t2. cbn [tk_run]. rewrite Et1. exact Et2.
Qed.

(** Every history: the calls before the first failed [next_event] are well nested (the
    tracker, which only knows start/end counting, accepts them), and after it no
    [next_event] succeeds. *)
Theorem C05_events_well_nested :
  forall O data sched seeks seekable h p (l : list (op O)) rs p',
    opened data sched seeks seekable h p -> run_ops l p = (rs, p') -> no_panic rs ->
    (exists t, tk_run tk_init (before_failure (combine l rs)) = Some t) /\
    existsb ok_next (after_failure (combine l rs)) = false.
Proof. intros. eapply nested_from; eauto. eapply opened_tracked; eauto. Qed.

(** [EndFbx] is the last event. *)
Theorem C05_end_fbx_is_last :
  forall O data sched seeks seekable h p (l1 l2 : list (op O)) rs1 p1 f p2 rs2 p3,
    opened data sched seeks seekable h p -> run_ops l1 p = (rs1, p1) ->
    run_op (@ONext O) p1 = (Ok (BEvent (EvEndFbx f)), p2) -> run_ops l2 p2 = (rs2, p3) ->
    existsb ok_next (combine l2 rs2) = false.
Proof.
  intros O data sched seeks seekable h p l1 l2 rs1 p1 f p2 rs2 p3 _ _ H2 H3.
  apply fbx_end_ended in H2. destruct (ended_run _ _ _ _ _ H2 H3) as (_ & _ & F).
  clear - F. induction F as [|[o r] t Hc F IH]; [reflexivity|]. cbn. rewrite IH, orb_false_r.
  destruct o; auto. rewrite Hc. reflexivity.
Qed.

(** While no [next_event] has failed, the depth is the number of open nodes. *)
Theorem C05_depth :
  forall O data sched seeks seekable h p (l : list (op O)) rs p',
    opened data sched seeks seekable h p -> run_ops l p = (rs, p') -> no_panic rs ->
    existsb failed_next (combine l rs) = false ->
    exists t, tk_run tk_init (combine l rs) = Some t /\ depth p' = lenN (tk_open t).
Proof.
  intros O data sched seeks seekable h p l rs p' Ho H Hn Hf.
  destruct (tracked_run _ _ _ _ _ _ (opened_tracked _ _ _ _ _ _ Ho) H Hn Hf) as (t & Et & Ht).
  exists t. split; [exact Et|]. apply tracked_position. exact Ht.
Qed.

(** A failing [next_event] leaves the depth as it was or one lower; never anything else.
    Missing (and false, see below): that it leaves the depth unchanged. *)
Theorem C05_depth_after_error_partial :
  forall O data sched seeks seekable h p (l : list (op O)) rs p' e p'',
    opened data sched seeks seekable h p -> run_ops l p = (rs, p') -> no_panic rs ->
    existsb failed_next (combine l rs) = false ->
    run_op (@ONext O) p' = (Err e, p'') ->
    exists t, tk_run tk_init (combine l rs) = Some t /\
      (depth p'' = lenN (tk_open t) \/ (depth p'' + 1 = lenN (tk_open t))%N).
Proof.
  intros O data sched seeks seekable h p l rs p' e p'' Ho H Hn Hf He.
  destruct (C05_depth _ _ _ _ _ _ _ _ _ _ Ho H Hn Hf) as (t & Et & Hd). exists t. split; [exact Et|].
  apply run_op_shape in He; [|discriminate]. destruct He as (r0 & s1 & Hne & He).
  destruct r0 as [v|e0|]; [destruct He as [[=] _]| |tauto]. destruct He as [_ ->].
  apply next_event_shape in Hne; [|discriminate]. cbn [p_health set_attrs] in Hne. destruct (p_health p').
  - destruct Hne as (_ & r0 & s2 & Hp & e1 & q & -> & _ & -> & _). apply impl_path_shape in Hp.
    unfold depth in *. cbn [p_stack set_health]. destruct Hp as [[(_ & _ & E & _) _]|(n & rest & s3 & E1 & [(_ & _ & E2 & _) _] & [(_ & _ & E3 & _) _])].
    + left. rewrite E. exact Hd.
    + right. rewrite E3. unfold pop. cbn [p_stack set_stack]. rewrite E2. cbn [p_stack set_attrs] in *.
      rewrite <- Hd, E1. cbn [tl]. unfold lenN. cbn [length]. lia.
  - left. destruct Hne as [-> _]. exact Hd.
  - left. destruct Hne as [-> _]. exact Hd.
Qed.

(** ** C13 *)
Theorem C13_node_path :
  forall O data sched seeks seekable h p (l : list (op O)) rs p',
    opened data sched seeks seekable h p -> run_ops l p = (rs, p') -> no_panic rs ->
    existsb failed_next (combine l rs) = false ->
    exists t pos, tk_run tk_init (combine l rs) = Some t /\ position_of p' = Some pos /\
      node_path pos = tk_path t.
Proof.
  intros O data sched seeks seekable h p l rs p' Ho H Hn Hf.
  destruct (tracked_run _ _ _ _ _ _ (opened_tracked _ _ _ _ _ _ Ho) H Hn Hf) as (t & Et & Ht).
  destruct (tracked_position _ _ Ht) as (_ & pos & E1 & E2 & _). exists t, pos. auto.
Qed.

(** ** C06 *)
(** What a client sees from each call after an error at [pos]. *)
Definition refused {O} (pos : synpos) (c : call O) : Prop :=
  match c with
  | (ONext, r) => r = Err (mkErr (EOperation AlreadyAborted) (Some pos))
  | (OLoad _, r) | (OLoadBuf _, r) =>
      r = Err (mkErr (EOperation AlreadyAborted) (Some pos)) \/ r = Ok BIgnored
  | (OSkip, _) => True
  end.

(** A call other than a skip that fails (with anything but "already finished") makes every
    later [next_event] and attribute load fail with [AlreadyAborted] at the very position
    the first error carried.  If the client does not skip, nothing more is read, no warning
    is delivered and no call panics. *)
Lemma aborted_noskip : forall O (l : list (op O)) s rs s' p, p_health s = Aborted p ->
  forallb (fun o => negb (is_skip o)) l = true ->
  run_ops l s = (rs, s') -> no_panic rs.
Proof.
  intros O l. induction l as [|o l IH]; intros s rs s' p Hh Hl H.
  - injection H as <- <-. reflexivity.
  - cbn [forallb] in Hl. apply andb_true_iff in Hl. destruct Hl as [Ho Hl]. cbn [run_ops] in H.
    destruct o as [|ld|ld|]; try discriminate.
    + assert (E : run_op (@ONext O) s = (Err (mkErr (EOperation AlreadyAborted) (Some p)), set_attrs None s)).
      { cbn [run_op]. rewrite bind_modify. unfold next_event. unfold bind at 1. rewrite bind_gets.
        unfold bind, ensure_continuable. cbn [set_attrs p_health]. rewrite Hh. reflexivity. }
      rewrite E in H. destruct (run_ops l (set_attrs None s)) as [rs' s2] eqn:E2. injection H as <- <-.
      eapply IH in E2; [exact E2 | exact Hh | exact Hl].
    + destruct (p_attrs s) as [a|] eqn:Ea.
      * assert (E : run_op (OLoad ld) s = (Err (mkErr (EOperation AlreadyAborted) (Some p)), s)).
        { cbn [run_op]. rewrite bind_gets, Ea. unfold load_next, load_next_gen, do_with_health_check, bind, ensure_continuable.
          rewrite Hh. reflexivity. }
        rewrite E in H. destruct (run_ops l s) as [rs' s2] eqn:E2. injection H as <- <-.
        eapply IH in E2; [exact E2 | exact Hh | exact Hl].
      * assert (E : run_op (OLoad ld) s = (Ok BIgnored, s)) by (cbn [run_op]; rewrite bind_gets, Ea; reflexivity).
        rewrite E in H. destruct (run_ops l s) as [rs' s2] eqn:E2. injection H as <- <-.
        eapply IH in E2; [exact E2 | exact Hh | exact Hl].
    + destruct (p_attrs s) as [a|] eqn:Ea.
      * assert (E : run_op (OLoadBuf ld) s = (Err (mkErr (EOperation AlreadyAborted) (Some p)), s)).
        { cbn [run_op]. rewrite bind_gets, Ea. unfold load_next_buffered, load_next_gen, do_with_health_check, bind, ensure_continuable.
          rewrite Hh. reflexivity. }
        rewrite E in H. destruct (run_ops l s) as [rs' s2] eqn:E2. injection H as <- <-.
        eapply IH in E2; [exact E2 | exact Hh | exact Hl].
      * assert (E : run_op (OLoadBuf ld) s = (Ok BIgnored, s)) by (cbn [run_op]; rewrite bind_gets, Ea; reflexivity).
        rewrite E in H. destruct (run_ops l s) as [rs' s2] eqn:E2. injection H as <- <-.
        eapply IH in E2; [exact E2 | exact Hh | exact Hl].
Qed.

Theorem C06_errors_are_sticky :
  forall O data sched seeks seekable h p (l1 : list (op O)) rs1 p1 (o : op O) e p2 (l2 : list (op O)) rs2 p3,
    opened data sched seeks seekable h p -> run_ops l1 p = (rs1, p1) ->
    is_skip o = false -> run_op o p1 = (Err e, p2) ->
    e <> mkErr (EOperation AlreadyFinished) None ->
    run_ops l2 p2 = (rs2, p3) ->
    exists pos, e_position e = Some pos /\
      (no_panic rs2 -> Forall (refused pos) (combine l2 rs2)) /\
      (forallb (fun o => negb (is_skip o)) l2 = true ->
       no_panic rs2 /\ p_rd p3 = p_rd p2 /\ p_log p3 = p_log p2).
Proof.
  intros O data sched seeks seekable h p l1 rs1 p1 o e p2 l2 rs2 p3 _ _ Ho He Hne H2.
  destruct (op_err_aborts _ _ _ _ _ Ho He Hne) as (pos & Ep & Hh). exists pos. split; [exact Ep|]. split.
  - intros Hn. destruct (aborted_run _ _ _ _ _ _ Hh H2 Hn) as (_ & F & _). exact F.
  - intros Hl. assert (Hn := aborted_noskip _ _ _ _ _ _ Hh Hl H2). split; [exact Hn|].
    destruct (aborted_run _ _ _ _ _ _ Hh H2 Hn) as (_ & _ & G). destruct (G Hl) as (A & B & _). auto.
Qed.

Lemma finished_from_end : forall O (l : list (op O)) s rs s', p_health s <> Finished ->
  run_ops l s = (rs, s') -> no_panic rs -> p_health s' = Finished ->
  existsb is_fbx_end (combine l rs) = true.
Proof.
  intros O l. induction l as [|o l IH]; intros s rs s' Hs H Hn Hf.
  - injection H as <- <-. congruence.
  - apply run_ops_cons_inv in H; [|exact Hn]. destruct H as (r & s1 & rs' & E1 & Hr & E2 & -> & Hn').
    cbn [combine existsb]. destruct (is_fbx_end (o, r)) eqn:Eb; [reflexivity|]. cbn [orb].
    eapply IH; [|exact E2|exact Hn'|exact Hf]. clear - Hs E1 Hr Eb.
    apply run_op_shape in E1; [|exact Hr]. destruct o as [|ld|ld|]; cbn [op_shape] in E1.
    + destruct E1 as (r0 & s2 & Hne & H). assert (Hr0 : r0 <> Panic) by (intros ->; exact H).
      apply next_event_shape in Hne; [|exact Hr0]. cbn [p_health set_attrs] in Hne.
      destruct (p_health s) eqn:Eh; [|congruence|].
      * destruct Hne as (_ & r1 & s3 & Hp & Hne).
        assert (Hh3 : p_health s3 = Running).
        { apply impl_path_shape in Hp. assert (P : popped (set_attrs None s) s3 -> p_health s3 = Running).
          { intros (n & rest & s4 & _ & [(_ & A & _) _] & [(_ & B & _) _]). cbn in *. congruence. }
          destruct r1 as [[| |]|e|]; [| | | |tauto].
          - destruct Hp as (n & s4 & [(_ & A & _) _] & -> & _). unfold push, count_child.
            destruct (p_stack s4); cbn in *; congruence.
          - auto.
          - destruct Hp as (_ & [(_ & A & _) _]). cbn in A. congruence.
          - destruct Hp as [[(_ & A & _) _]|Hp]; [cbn in A; congruence | auto]. }
        destruct r0 as [[n| |f]|e|]; [| | | |tauto].
        -- destruct Hne as (_ & -> & _). destruct H as (_ & n' & rest & _ & ->). cbn. congruence.
        -- destruct Hne as (_ & ->). destruct H as (_ & ->). cbn. congruence.
        -- destruct H as (-> & _). discriminate.
        -- destruct Hne as (e0 & q & _ & _ & -> & _). destruct H as (_ & ->). cbn. discriminate.
      * destruct Hne as [-> ->]. destruct H as [_ ->]. cbn. congruence.
    + destruct (p_attrs s); [|destruct E1 as [_ ->]; exact Hs].
      destruct E1 as (r0 & Hl & H). assert (Hr0 : r0 <> Panic) by (intros ->; exact H).
      apply load_next_shape in Hl; [|exact Hr0]. destruct (p_health s) eqn:Eh; [|congruence|destruct Hl as [-> _]; congruence].
      destruct Hl as (a' & _ & r1 & s2 & Hb & Hr1 & Hl). apply load_body_quietl in Hb; [|exact Hr1].
      destruct Hb as [(_ & Hb & _) _]. destruct r0 as [v|e|]; [| |tauto].
      * destruct Hl as [_ ->]. congruence.
      * destruct Hl as (e0 & p0 & _ & _ & -> & _). discriminate.
    + destruct (p_attrs s); [|destruct E1 as [_ ->]; exact Hs].
      destruct E1 as (r0 & Hl & H). assert (Hr0 : r0 <> Panic) by (intros ->; exact H).
      apply load_next_shape in Hl; [|exact Hr0]. destruct (p_health s) eqn:Eh; [|congruence|destruct Hl as [-> _]; congruence].
      destruct Hl as (a' & _ & r1 & s2 & Hb & Hr1 & Hl). apply load_body_quietl in Hb; [|exact Hr1].
      destruct Hb as [(_ & Hb & _) _]. destruct r0 as [v|e|]; [| |tauto].
      * destruct Hl as [_ ->]. congruence.
      * destruct Hl as (e0 & p0 & _ & _ & -> & _). discriminate.
    + destruct E1 as (r0 & Hsk & H). assert (Hr0 : r0 <> Panic) by (intros ->; exact H).
      apply skip_shape in Hsk; [|exact Hr0]. destruct Hsk as (n & rest & Es & Hm).
      apply m_skip_to_quieta in Hm; [|exact Hr0]. destruct Hm as [(_ & E & _) _]. rewrite E. exact Hs.
Qed.

Theorem C06_already_finished_only_after_end :
  forall O data sched seeks seekable h p (l1 : list (op O)) rs1 p1 (o : op O) p2,
    opened data sched seeks seekable h p -> run_ops l1 p = (rs1, p1) -> no_panic rs1 ->
    is_skip o = false -> run_op o p1 = (Err (mkErr (EOperation AlreadyFinished) None), p2) ->
    existsb is_fbx_end (combine l1 rs1) = true.
Proof.
  intros O data sched seeks seekable h p l1 rs1 p1 o p2 Ho H Hn Hs He.
  apply opened_init in Ho. destruct Ho as (Hh & _).
  eapply finished_from_end; [|exact H|exact Hn|]. { congruence. }
  apply run_op_shape in He; [|discriminate]. destruct o as [|ld|ld|]; cbn [op_shape] in He; try discriminate.
  - destruct He as (r0 & s1 & Hne & E). destruct r0 as [v|e0|]; [destruct E as [[=] _]| |tauto].
    destruct E as [[= <-] ->]. apply next_event_shape in Hne; [|discriminate]. cbn [p_health set_attrs] in Hne.
    destruct (p_health p1); auto.
    + destruct Hne as (_ & _ & _ & _ & e0 & q & _ & _ & _ & [=]).
    + destruct Hne as [_ [=]].
  - destruct (p_attrs p1); [|destruct He as [[=] _]]. destruct He as (r0 & Hl & E).
    destruct r0 as [v|e0|]; [discriminate| |tauto]. injection E as <-.
    apply load_next_shape in Hl; [|discriminate]. destruct (p_health p1); auto.
    + destruct Hl as (a' & _ & r1 & s1 & _ & _ & e1 & p0 & _ & _ & _ & [=]).
    + destruct Hl as [_ [=]].
  - destruct (p_attrs p1); [|destruct He as [[=] _]]. destruct He as (r0 & Hl & E).
    destruct r0 as [v|e0|]; [discriminate| |tauto]. injection E as <-.
    apply load_next_shape in Hl; [|discriminate]. destruct (p_health p1); auto.
    + destruct Hl as (a' & _ & r1 & s1 & _ & _ & e1 & p0 & _ & _ & _ & [=]).
    + destruct Hl as [_ [=]].
Qed.

(** ** C07 *)
Theorem C07_end_is_final :
  forall O data sched seeks seekable h p (l1 : list (op O)) rs1 p1 f p2 (l2 : list (op O)) rs2 p3,
    opened data sched seeks seekable h p -> run_ops l1 p = (rs1, p1) ->
    run_op (@ONext O) p1 = (Ok (BEvent (EvEndFbx f)), p2) -> run_ops l2 p2 = (rs2, p3) ->
    p_rd p3 = p_rd p2 /\ p_log p3 = p_log p2 /\
    Forall (fun c => match c with
                     | (ONext, r) => r = Err (mkErr (EOperation AlreadyFinished) None)
                     | (OLoad _, r) | (OLoadBuf _, r) => r = Ok BIgnored
                     | (OSkip, r) => r = Panic
                     end) (combine l2 rs2).
Proof.
  intros O data sched seeks seekable h p l1 rs1 p1 f p2 l2 rs2 p3 _ _ H2 H3.
  apply fbx_end_ended in H2. eapply ended_run; eauto.
Qed.

End WithEnv.

(** ** Witnesses *)

(** The sample document is a history that meets the hypotheses: it opens, runs without a
    panic and without a failed [next_event], through all event kinds. *)
Definition whole_ops : list (op aval) := removelast sample_ops.

Example events_example :
  exists p rs p', opened (sample_doc 7400) [AIntr; AChunk 3; AChunk 1] [] true None p /\
    run_ops (env:=release) whole_ops p = (rs, p') /\ no_panic rs /\
    existsb failed_next (combine whole_ops rs) = false /\
    existsb is_fbx_end (combine whole_ops rs) = true /\ length rs = 16%nat.
Proof.
  unfold opened. do 3 eexists. split.
  - eexists. split; [vm_compute; reflexivity|reflexivity].
  - split; [vm_compute; reflexivity|]. vm_compute. repeat split; reflexivity.
Qed.

(** Inside the first node: depth 2, path [A/B]. *)
Example path_example :
  exists p rs p' t, opened (sample_doc 7500) [] [] true None p /\
    run_ops (env:=release) [@ONext aval; ONext; ONext; ONext] p = (rs, p') /\ no_panic rs /\
    tk_run tk_init (combine [@ONext aval; ONext; ONext; ONext] rs) = Some t /\
    tk_path t = [(0%N, s_a); (1%N, [])] /\ depth p' = 2%N.
Proof.
  unfold opened. do 4 eexists. split.
  - eexists. split; [vm_compute; reflexivity|reflexivity].
  - split; [vm_compute; reflexivity|]. vm_compute. repeat split; reflexivity.
Qed.

(** Sticky error: an empty document body is an unexpected end of file. *)
Definition no_body : list byte := magic ++ le_enc 4 7400.
Example sticky_example :
  exists p e p2, opened no_body [] [] true None p /\
    run_op (env:=release) (@ONext aval) p = (Err e, p2) /\ e <> mkErr (EOperation AlreadyFinished) None /\
    fst (run_ops (env:=release) [@ONext aval; ONext] p2) =
      [Err (mkErr (EOperation AlreadyAborted) (e_position e)); Err (mkErr (EOperation AlreadyAborted) (e_position e))].
Proof.
  unfold opened. do 3 eexists. split.
  - eexists. split; [vm_compute; reflexivity|reflexivity].
  - split; [vm_compute; reflexivity|]. split; [discriminate|]. vm_compute. reflexivity.
Qed.

(** C04 refuted for plain readers: skip a node, and the reported position is not the
    offset of the stream. *)
Theorem C04_position_plain_refuted :
  exists data p rs p' pos, opened data [] [] false None p /\
    run_ops (env:=release) [@ONext aval; ONext] p = (rs, p') /\ no_panic rs /\
    position_of p' = Some pos /\ byte_pos pos <> s_off (r_stream (p_rd p')).
Proof.
  exists (sample_doc 7400). unfold opened. do 4 eexists. split.
  - eexists. split; [vm_compute; reflexivity|reflexivity].
  - split; [vm_compute; reflexivity|]. split; [reflexivity|]. split; [vm_compute; reflexivity|].
    vm_compute. discriminate.
Qed.

(** C05 refuted after an error: a node whose end offset is wrong fails with
    [NodeLengthMismatch], no [EndNode] is returned, yet the depth has gone back to 0. *)
Definition bad_end : list byte :=
  magic ++ le_enc 4 7400 ++ le_enc 4 1000 ++ le_enc 4 0 ++ le_enc 4 0 ++ [x01] ++ s_a ++ zeros 13.
Theorem C05_depth_after_error_refuted :
  exists p rs p' t, opened bad_end [] [] true None p /\
    run_ops (env:=release) [@ONext aval; ONext] p = (rs, p') /\ no_panic rs /\
    tk_run tk_init (before_failure (combine [@ONext aval; ONext] rs)) = Some t /\
    lenN (tk_open t) = 1%N /\ depth p' = 0%N.
Proof.
  unfold opened. do 4 eexists. split.
  - eexists. split; [vm_compute; reflexivity|reflexivity].
  - split; [vm_compute; reflexivity|]. vm_compute. repeat split; reflexivity.
Qed.

Print Assumptions C04_position_is_offset_seekable.
Print Assumptions C04_position_is_offset_plain_partial.
Print Assumptions C04_position_plain_refuted.
Print Assumptions C05_events_well_nested.
Print Assumptions C05_end_fbx_is_last.
Print Assumptions C05_depth.
Print Assumptions C05_depth_after_error_partial.
Print Assumptions C05_depth_after_error_refuted.
Print Assumptions C06_errors_are_sticky.
Print Assumptions C06_already_finished_only_after_end.
Print Assumptions C07_end_is_final.
Print Assumptions C13_node_path.
