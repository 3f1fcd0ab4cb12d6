(** C55: what [next_event] reports is true of the bytes of the file. *)
Require Import Coq.Lists.List Coq.NArith.NArith Coq.ZArith.ZArith Coq.Bool.Bool Coq.micromega.Lia.
Require Import Coq.Init.Byte.
Require Import ZifyBool ZifyNat ZifyN.
Require Import Verif.Base Verif.BaseFacts Verif.Utf8 Verif.Types Verif.Io Verif.IoFacts Verif.Parser Verif.MonadFacts Verif.ParserSteps
  Verif.ParserShape Verif.SpecHist Verif.ParserHist Verif.ParserPos Verif.PropsEvents Verif.WarnPos
  Verif.Spec Verif.SpecLayout Verif.LayoutIn Verif.SpecErr Verif.SpecTruth Verif.Truth Verif.Samples Verif.PropsAttrPos.
Import ListNotations.
Ltac Zify.zify_post_hook ::= Z.div_mod_to_equations.

Section WithEnv.
Context {env : Env}.

Lemma inv_same : forall data ver s s', inv data ver s -> p_ver s' = p_ver s -> p_rd s' = p_rd s -> p_stack s' = p_stack s -> p_top s' = p_top s -> inv data ver s'.
Proof.
  intros data ver s s' [A B C D E] H1 H2 H3 H4. split; unfold rem, rpos, topok in *; rewrite ?H1, ?H2, ?H3, ?H4; assumption.
Qed.
Ltac same I := eapply inv_same; [exact I|reflexivity|reflexivity|reflexivity|reflexivity].

Lemma next_said : forall data ver s before r s', inv data ver s -> position_of s = Some before -> next_event s = (r, s') -> r <> Panic ->
  inv data ver s' /\ forall after, position_of s' = Some after ->
  match r with
  | Ok e => event_true data ver before after e
  | Err e => (exists x, e_error e = EOperation x) \/ refused e s' \/ error_true data ver before after (e_error e)
  | Panic => False
  end.
Proof.
  intros data ver s before r s' I Pb H Hp. apply next_event_shape in H; [|exact Hp].
  destruct (p_health s) eqn:Eh; [|destruct H as [-> ->]; split; [exact I|]; intros; left; eexists; reflexivity|destruct H as [-> ->]; split; [exact I|]; intros; left; eexists; reflexivity].
  destruct H as (_ & r0 & s1 & Hi & H). apply (impl_said _ _ _ _ _ _ I Pb) in Hi. destruct r as [e|e|]; [| |contradiction].
  - destruct e as [name| |f].
    + destruct H as (-> & -> & n & rest & E1 & E2). destruct Hi as (I1 & n' & C & Hi). split; [same I1|]. intros after Pa.
      unfold current_node in C. rewrite E1 in C. injection C as ->. rewrite <- E2. apply Hi. exact Pa.
    + destruct H as (-> & ->). destruct Hi as (I1 & Hi). split; [same I1|]. intros after Pa. apply Hi. exact Pa.
    + destruct H as (-> & H). destruct Hi as (I1 & Hi). apply (steps_elim _ _ _ _ _ _ read_footer_quiet) in H; [|destruct f; discriminate].
      split; [eapply inv_quiet; [|apply H]; same I1|]. intros after Pa. apply Hi. apply position_of_path in Pa. destruct Pa as (-> & _).
      destruct H as [H _]. apply quiet_rpos in H. exact H.
  - destruct H as (e0 & p & -> & Ep & -> & ->). destruct Hi as (I1 & Hi). split; [same I1|]. intros after Pa. right.
    destruct Hi as [(h & e1 & A & B & C & D)|Hi]; [left; exists h, e1; auto|]. right. apply Hi. exact Pa.
Qed.

Lemma inv_op : forall data ver O (o : op O) s r s', inv data ver s -> run_op o s = (r, s') -> r <> Panic -> inv data ver s'.
Proof.
  intros data ver O o s r s' I H Hp. pose proof (steps_elim _ _ _ _ _ _ (run_op_fwd O o) H Hp) as F.
  assert (T : topok s') by (eapply run_op_keeps; [exact H|exact Hp|apply I]).
  apply run_op_shape in H; [|exact Hp]. destruct o as [|l|l|]; cbn [op_shape] in H.
  - destruct H as (r0 & s1 & Hn & H). assert (Hr0 : r0 <> Panic) by (intros ->; exact H).
    assert (I0 : inv data ver (set_attrs None s)) by same I. destruct (topok_position _ (iv_top _ _ _ I0)) as (before & Pb & _).
    destruct (next_said _ _ _ _ _ _ I0 Pb Hn Hr0) as (I1 & _). destruct r0 as [e|e|]; [|destruct H as [_ ->]; exact I1|contradiction].
    destruct H as [_ H]. destruct e; [|subst; exact I1|subst; exact I1]. destruct H as (n & rest & _ & ->). same I1.
  - destruct (p_attrs s) as [a|]; [|destruct H as [_ ->]; exact I]. destruct H as (r0 & H & H0). assert (Hr0 : r0 <> Panic) by (intros ->; exact H0).
    apply load_next_ctl in H; [|exact Hr0]. destruct H as (A & _). eapply inv_fwd; [exact I|exact F|exact T|]. rewrite A. apply I.
  - destruct (p_attrs s) as [a|]; [|destruct H as [_ ->]; exact I]. destruct H as (r0 & H & H0). assert (Hr0 : r0 <> Panic) by (intros ->; exact H0).
    apply load_next_ctl in H; [|exact Hr0]. destruct H as (A & _). eapply inv_fwd; [exact I|exact F|exact T|]. rewrite A. apply I.
  - destruct H as (r0 & H & H0). assert (Hr0 : r0 <> Panic) by (intros ->; exact H0).
    apply skip_shape in H; [|exact Hr0]. destruct H as (n & rest & E & H). apply m_skip_to_quieta in H; [|exact Hr0].
    eapply inv_quiet; [|apply H]. assert (I0 : inv data ver (pop s)) by (apply inv_pop; exact I). same I0.
Qed.
Lemma inv_ops : forall data ver O (l : list (op O)) s rs s', inv data ver s -> run_ops l s = (rs, s') -> no_panic rs -> inv data ver s'.
Proof.
  intros data ver O l. induction l as [|o l IH]; intros s rs s' I H N; cbn [run_ops] in H; [injection H as <- <-; exact I|].
  destruct (run_op o s) as [r s1] eqn:E. destruct r as [v|e|].
  - destruct (run_ops l s1) as [rs1 s2] eqn:E1. injection H as <- <-. eapply IH; [eapply inv_op; [exact I|exact E|discriminate]|exact E1|exact N].
  - destruct (run_ops l s1) as [rs1 s2] eqn:E1. injection H as <- <-. eapply IH; [eapply inv_op; [exact I|exact E|discriminate]|exact E1|exact N].
  - injection H as <- <-. discriminate.
Qed.

(** After any history on a reader that can seek: an event of [next_event] says what the bytes of
    the file are where it was read; so does an error, unless it is a repeated refusal or the
    handler's. *)
Theorem C55_events_true :
  forall O data sched seeks h p (l : list (op O)) rs p1 r p2,
    opened data sched seeks true h p -> run_ops l p = (rs, p1) -> no_panic rs ->
    run_op (@ONext O) p1 = (r, p2) -> r <> Panic ->
    exists before after, position_of p1 = Some before /\ position_of p2 = Some after /\
      match r with
      | Ok (BEvent e) => event_true data (p_ver p) before after e
      | Err e => (exists x, e_error e = EOperation x) \/ refused e p2 \/ error_true data (p_ver p) before after (e_error e)
      | _ => False
      end.
Proof.
  intros O data sched seeks h p l rs p1 r p2 Ho H N Hr Hp.
  assert (I : inv data (p_ver p) p1) by (eapply inv_ops; [eapply inv_opened; [exact Ho|reflexivity]|exact H|exact N]).
  assert (I2 : inv data (p_ver p) p2) by (eapply inv_op; eassumption).
  destruct (topok_position _ (iv_top _ _ _ I)) as (before & Pb & _). destruct (topok_position _ (iv_top _ _ _ I2)) as (after & Pa & _).
  exists before, after. split; [exact Pb|]. split; [exact Pa|]. apply run_op_shape in Hr; [|exact Hp]. cbn [op_shape] in Hr.
  destruct Hr as (r0 & s1 & Hn & Hr). assert (Hr0 : r0 <> Panic) by (intros ->; exact Hr).
  assert (I0 : inv data (p_ver p) (set_attrs None p1)) by same I.
  destruct (next_said _ _ _ _ _ _ I0 Pb Hn Hr0) as (_ & X). destruct r0 as [e|e|]; [| |contradiction].
  - destruct Hr as [-> Hr]. apply X. destruct e; [|subst; exact Pa|subst; exact Pa]. destruct Hr as (n & rest & _ & ->). exact Pa.
  - destruct Hr as [-> ->]. apply X. exact Pa.
Qed.
End WithEnv.

(** ** Examples *)
(** A child that ends after its parent, a marker at the wrong place, a name that is not UTF-8,
    and a file that ends within a header. *)
Definition codes {O} (rs : list (res perr (obs O))) : list (option econtainer) := map (fun r => option_map e_error (error_of r)) rs.
Example late_child_example : exists p rs p', opened late_child [] [] true None p /\
  run_ops (env:=release) [@ONext aval; ONext; ONext] p = (rs, p') /\ no_panic rs /\
  codes rs = [None; None; Some (EData (NodeLengthMismatch 90 (Some 68)))]%N.
Proof. unfold opened. do 3 eexists. split; [eexists; split; [vm_compute; reflexivity|reflexivity]|]. split; [vm_compute; reflexivity|]. split; reflexivity. Qed.
Definition long_child : list byte :=
  magic ++ le_enc 4 7400 ++
  (* 27 *) le_enc 4 60 ++ le_enc 4 0 ++ le_enc 4 0 ++ [x01] ++ s_a ++
  (* 41 *) le_enc 4 68 ++ le_enc 4 0 ++ le_enc 4 0 ++ [x01] ++ s_b ++
  (* 55 *) zeros 13 ++ (* 68 *) zeros 30.
Example long_child_example : exists p rs p', opened long_child [] [] true None p /\
  run_ops (env:=release) [@ONext aval; ONext; ONext; ONext] p = (rs, p') /\ no_panic rs /\
  codes rs = [None; None; None; Some (EData (NodeLengthMismatch 60 None))]%N.
Proof. unfold opened. do 3 eexists. split; [eexists; split; [vm_compute; reflexivity|reflexivity]|]. split; [vm_compute; reflexivity|]. split; reflexivity. Qed.
Definition bad_name : list byte :=
  magic ++ le_enc 4 7400 ++ le_enc 4 41 ++ le_enc 4 0 ++ le_enc 4 0 ++ [x01; xff] ++ zeros 60.
Example bad_name_example : exists p r p', opened bad_name [] [] true None p /\
  run_op (env:=release) (@ONext aval) p = (r, p') /\ r <> Panic /\ codes [r] = [Some (EData (InvalidNodeNameEncoding [xff]))] /\
  option_map byte_pos (position_of p') = Some 41%N.
Proof.
  unfold opened. do 3 eexists. split; [eexists; split; [vm_compute; reflexivity|reflexivity]|]. split; [vm_compute; reflexivity|].
  split; [discriminate|]. split; vm_compute; reflexivity.
Qed.
Example cut_name_example : exists p r p', opened (firstn 40 bad_name) [] [] true None p /\
  run_op (env:=release) (@ONext aval) p = (r, p') /\ r <> Panic /\ codes [r] = [Some (EIo IoEof)].
Proof.
  unfold opened. do 3 eexists. split; [eexists; split; [vm_compute; reflexivity|reflexivity]|]. split; [vm_compute; reflexivity|].
  split; [discriminate|]. vm_compute; reflexivity.
Qed.
