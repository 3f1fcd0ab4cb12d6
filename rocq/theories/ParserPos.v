(** The reader only moves forward, whatever the client does. *)
Require Import Coq.Lists.List Coq.NArith.NArith Coq.ZArith.ZArith Coq.Bool.Bool Coq.micromega.Lia.
Require Import ZifyBool ZifyNat ZifyN.
Require Import Verif.Base Verif.BaseFacts Verif.Utf8 Verif.Types Verif.Io Verif.IoFacts Verif.Parser Verif.MonadFacts Verif.ParserSteps Verif.ParserShape Verif.SpecHist Verif.ParserHist.
Import ListNotations.
Ltac Zify.zify_post_hook ::= Z.div_mod_to_equations.

Section WithEnv.
Context {env : Env}.

(** Version and handler fixed, log extended, reader forward. *)
Definition fwd (s s' : pstate) : Prop :=
  p_ver s' = p_ver s /\ p_handler s' = p_handler s /\
  (exists l, p_log s' = l ++ p_log s) /\ rd_fwd (p_rd s) (p_rd s').
Lemma fwd_pre : preorder fwd.
Proof.
  split.
  - intros s. repeat split; auto; [exists []; reflexivity | apply rd_fwd_refl].
  - intros a b c (A1&A2&(la&A3)&A4) (B1&B2&(lb&B3)&B4). repeat split; try congruence.
    + exists (lb ++ la). rewrite B3, A3, app_assoc. reflexivity.
    + eapply rd_fwd_trans; eauto.
Qed.
Lemma quiet_fwd : forall s s', quiet s s' -> fwd s s'.
Proof. intros s s' (A&_&_&_&_&B&C&D). repeat split; auto. Qed.
Lemma steps_qf : forall A (m : M A), steps quieta m -> steps fwd m.
Proof. intros A m H s Hp. apply quiet_fwd. apply H. exact Hp. Qed.
Lemma steps_lf : forall A (m : M A), steps quietl m -> steps fwd m.
Proof. intros A m H s Hp. apply quiet_fwd. apply H. exact Hp. Qed.

Lemma fwd_same : forall s s', p_ver s' = p_ver s -> p_handler s' = p_handler s -> p_log s' = p_log s ->
  p_rd s' = p_rd s -> fwd s s'.
Proof. intros s s' A B C D. repeat split; auto; [exists []; auto | rewrite D; apply rd_fwd_refl]. Qed.

Create HintDb fwd.
Hint Resolve steps_qf steps_lf warn_quiet reader_pos_quiet read_exact_quiet skip_unread_quiet
  read_node_header_quiet read_footer_quiet m_skip_to_quiet load_next_impl_quiet read_next_attr_type_quiet
  attr_position_quiet get_attrs_quiet : fwd.
Ltac f := repeat first [ solve [auto 3 with fwd] | steps_step fwd_pre ].

Lemma count_child_fwd : steps fwd (modify count_child).
Proof. apply st_modify. intros s. unfold count_child. destruct (p_stack s); apply fwd_same; reflexivity. Qed.
Lemma pop_fwd : steps fwd (modify pop).
Proof. apply st_modify. intros s. apply fwd_same; reflexivity. Qed.
Lemma push_fwd : forall n, steps fwd (modify (push n)).
Proof. intros. apply st_modify. intros s. apply fwd_same; reflexivity. Qed.
Lemma set_health_fwd : forall h, steps fwd (modify (set_health h)).
Proof. intros. apply st_modify. intros s. apply fwd_same; reflexivity. Qed.
Lemma set_last_fwd : forall h, steps fwd (modify (set_last h)).
Proof. intros. apply st_modify. intros s. apply fwd_same; reflexivity. Qed.
Lemma set_attrs_fwd : forall h, steps fwd (modify (set_attrs h)).
Proof. intros. apply st_modify. intros s. apply fwd_same; reflexivity. Qed.
Lemma add_fwd : forall a b, steps fwd (add_u64 a b).
Proof. intros. unfold add_u64. f. Qed.
Hint Resolve count_child_fwd pop_fwd push_fwd set_health_fwd set_last_fwd set_attrs_fwd add_fwd : fwd.

Lemma start_node_fwd : forall n h, steps fwd (start_node n h).
Proof. intros. unfold start_node. f. Qed.
Hint Resolve start_node_fwd : fwd.
Lemma next_event_impl_fwd : steps fwd next_event_impl.
Proof. unfold next_event_impl. f. Qed.
Hint Resolve next_event_impl_fwd : fwd.
Lemma next_event_fwd : steps fwd next_event.
Proof. unfold next_event. f. Qed.
Hint Resolve next_event_fwd : fwd.
Lemma load_next_fwd : forall O b (ld : loader O), steps fwd (load_next_gen b ld).
Proof. intros. unfold load_next_gen, do_with_health_check. f. Qed.
Hint Resolve load_next_fwd : fwd.
Lemma skip_fwd : steps fwd skip_current_node.
Proof. unfold skip_current_node. f. Qed.
Hint Resolve skip_fwd : fwd.
Lemma run_op_fwd : forall O (o : op O), steps fwd (run_op o).
Proof.
  intros O [|l|l|]; cbn [run_op]; unfold load_next, load_next_buffered, from_parser; f.
Qed.

Lemma run_ops_fwd : forall O (l : list (op O)) s rs s', run_ops l s = (rs, s') -> no_panic rs -> fwd s s'.
Proof.
  intros O l. induction l as [|o l IH]; intros s rs s' H Hn.
  - injection H as <- <-. apply fwd_pre.
  - apply run_ops_cons_inv in H; [|exact Hn]. destruct H as (r & s1 & rs' & E1 & Hr & E2 & -> & Hn').
    eapply fwd_pre; [eapply steps_elim; [apply run_op_fwd | exact E1 | exact Hr]|]. eapply IH; eauto.
Qed.

(** ** Parsers from the start *)

(** [p] is a parser just created on [data], with handler [h]. *)
Definition opened (data : list byte) (sched : list ioact) (seeks : list (option N)) (seekable : bool)
                  (h : option handler) (p : pstate) : Prop :=
  exists p0, any_parser (mkStream data 0 sched seeks) seekable = Ok p0 /\ p = set_handler h p0.

Lemma opened_init : forall data sched seeks seekable h p, opened data sched seeks seekable h p ->
  p_health p = Running /\ p_stack p = [] /\ p_last p = None /\ p_top p = 0%N /\ p_handler p = h /\
  p_log p = [] /\ p_attrs p = None /\ r_pos (p_rd p) = 27%N /\ r_seekable (p_rd p) = seekable /\
  s_off (r_stream (p_rd p)) = 27%N /\ s_rem (r_stream (p_rd p)) = dropN 27 data /\
  (7000 <= p_ver p <= 7999)%N /\ (27 <= lenN data)%N.
Proof.
  intros data sched seeks seekable h p (p0 & E & ->). unfold any_parser in E.
  destruct (header_load (mkStream data 0 sched seeks)) as [[v|e|] s'] eqn:Eh; try discriminate.
  destruct (ver_supported v) eqn:Ev; [|discriminate]. unfold parser_create in E. rewrite Ev in E.
  injection E as <-. cbn.
  unfold header_load, st_read_exact in Eh. cbn [s_sched s_rem s_off s_seeks] in Eh.
  destruct (rx sched data 23) as [[[e1 g1] r1] sc1] eqn:E1. apply rx_gen in E1.
  destruct E1 as (D1 & _ & G1 & _). destruct e1 as [e1|]; [discriminate|]. specialize (G1 eq_refl).
  destruct (bytes_eqb g1 magic) eqn:Em; [|discriminate]. cbn [s_sched s_rem s_off s_seeks] in Eh.
  destruct (rx sc1 r1 4) as [[[e2 g2] r2] sc2] eqn:E2. apply rx_gen in E2.
  destruct E2 as (D2 & _ & G2 & _). destruct e2 as [e2|]; [discriminate|]. specialize (G2 eq_refl).
  injection Eh as _ <-. cbn. unfold ver_supported in Ev.
  assert (L : lenN (g1 ++ g2) = 27%N) by (unfold lenN; rewrite app_length; lia).
  subst data r1. rewrite app_assoc.
  repeat split; auto; try lia.
  - unfold lenN. rewrite G1, G2. reflexivity.
  - rewrite <- L. symmetry. apply dropN_app_len.
  - rewrite lenN_app. lia.
Qed.

Lemma opened_tracked : forall data sched seeks seekable h p, opened data sched seeks seekable h p -> tracked tk_init p.
Proof.
  intros. apply opened_init in H. destruct H as (_ & E1 & _ & E2 & _). unfold tracked, tk_init. rewrite E1, E2. cbn.
  repeat split; auto. congruence.
Qed.

End WithEnv.
