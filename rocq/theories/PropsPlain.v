(** C23: plain and seekable readers. *)
Require Import Coq.Lists.List Coq.NArith.NArith Coq.ZArith.ZArith Coq.Bool.Bool Coq.micromega.Lia.
Require Import ZifyBool ZifyNat ZifyN.
Require Import Coq.Init.Byte.
Require Import Verif.Base Verif.BaseFacts Verif.Utf8 Verif.Types Verif.Io Verif.IoFacts Verif.Parser Verif.MonadFacts Verif.Zlib Verif.Moves Verif.Loaders Verif.Spec Verif.SpecFacts Verif.ParserSteps Verif.ParserHist Verif.ParserPos Verif.ParserRel Verif.EscRel Verif.PropsRel Verif.CutRel Verif.CutParser Verif.CutLoad Verif.PropsEvents Verif.PropsTrunc Verif.PropsHeader Verif.DocTrace Verif.PropsDoc Verif.Samples.
Import ListNotations.

(** C23 is false: the same well-formed document and the same calls (two events, the attributes
    of the first node not loaded) give different results. *)
Theorem C23_plain_equals_seekable_refuted :
  exists data p q, opened data [] [] true None p /\ opened data [] [] false None q /\
    exists l : list (op aval),
      fst (run_pos (env:=release) l p) <> fst (run_pos (env:=release) l q) /\
      Forall (fun r => is_ok (fst r)) (fst (run_pos (env:=release) l p)) /\
      ~ Forall (fun r => is_ok (fst r)) (fst (run_pos (env:=release) l q)) /\
      exists ns f, doc_ok (env:=release) 7400 ns /\ foot_ok f /\ data = enc_doc (env:=release) 7400 ns f.
Proof.
  exists (sample_doc 7400).
  assert (X : forall b, exists p, any_parser (mkStream (sample_doc 7400) 0 [] []) b = Ok p) by (intros []; eexists; vm_compute; reflexivity).
  destruct (X true) as (p & Ep), (X false) as (q & Eq). exists (set_handler None p), (set_handler None q).
  split; [exists p; auto|]. split; [exists q; auto|]. exists [ONext; ONext; ONext; ONext; ONext].
  vm_compute in Ep, Eq. injection Ep as <-. injection Eq as <-.
  split; [vm_compute; discriminate|]. split; [vm_compute; repeat constructor|]. split.
  - intros F. vm_compute in F. repeat (match type of F with Forall _ (_ :: _) => apply Forall_inv_tail in F as F1; apply Forall_inv in F; try contradiction; clear F; rename F1 into F end).
  - exists sample_nodes, (sample_foot 7400). split; [apply Cases.sample_ok; auto|]. split; [apply Cases.sample_foot_ok; auto|]. reflexivity.
Qed.

(** ** What does hold *)
Section Twin.
Context {env : Env} (sk : list (option N)).

(** The same reader, seekable. *)
Definition fl (r : reader) : reader :=
  mkReader (mkStream (s_rem (r_stream r)) (s_off (r_stream r)) (s_sched (r_stream r)) sk) (r_pos r) true.
Definition twin (s1 s2 : pstate) : Prop :=
  r_seekable (p_rd s1) = false /\ nofail (s_sched (r_stream (p_rd s1))) = true /\
  (r_pos (p_rd s1) <= s_off (r_stream (p_rd s1)))%N /\ s2 = set_rd (fl (p_rd s1)) s1.
(** The plain parser's position has fallen behind, or its stream is used up. *)
Definition lag (s : pstate) : Prop := (r_pos (p_rd s) < s_off (r_stream (p_rd s)))%N \/ s_rem (r_stream (p_rd s)) = [].

Lemma lag_fwd : forall s s', fwd s s' -> lag s -> lag s'.
Proof.
  intros s s' (_ & _ & _ & d & p & (M1 & M2 & M3 & _) & L & _) [H|H]; [left|right].
  - rewrite M2, M3. lia.
  - rewrite M1, H, dropN_skipn. apply skipn_nil.
Qed.
Lemma twin_upd : forall f, (forall s r, f (set_rd r s) = set_rd r (f s)) -> (forall s, p_rd (f s) = p_rd s) ->
  forall s1 s2, twin s1 s2 -> twin (f s1) (f s2).
Proof. intros f H1 H2 s1 s2 (A & B & C & ->). unfold twin. rewrite H1, H2. auto. Qed.
Lemma t_rdop : forall A (f : reader -> option A * reader),
  (forall r a r', f r = (Some a, r') -> rd_fwd r r') ->
  (forall r o r', f r = (o, r') -> nofail (s_sched (r_stream r)) = true -> nofail (s_sched (r_stream r')) = true) ->
  (forall r, f (fl r) = (fst (f r), fl (snd (f r)))) -> erel twin lag fwd (rdop f).
Proof.
  intros A f H1 H2 H3. split.
  - apply st_rdop. intros s a r E. apply H1 in E. split; [reflexivity|]. split; [reflexivity|]. split; [exists []; reflexivity|exact E].
  - intros s1 s2 r t1 (T1 & T2 & T3 & ->) E Hp. right. unfold rdop in *. cbn [p_rd set_rd]. rewrite H3.
    destruct (f (p_rd s1)) as [o r'] eqn:Ef. cbn [fst snd]. destruct o as [a|]; injection E as <- <-; [|congruence].
    eexists. split; [reflexivity|]. destruct (H1 _ _ _ Ef) as (d & p & (M1 & M2 & M3 & M4) & L & _). unfold twin. cbn [p_rd set_rd].
    split; [congruence|]. split; [apply (H2 _ _ _ Ef T2)|]. split; [lia|reflexivity].
Qed.
Ltac adv := match goal with |- context [advance ?a ?b] => destruct (advance a b) end; reflexivity.
Lemma t_exact : forall n, erel twin lag fwd (rdop (rd_exact n)).
Proof.
  intros n. apply t_rdop; [apply rd_exact_fwd| |].
  - intros r o r' E. unfold rd_exact in E. destruct (rx _ _ _) as [[[e g] rm] sc] eqn:Ex. intros H. apply (rx_calm _ _ _ _ _ _ _ Ex) in H.
    destruct (advance _ _); injection E as <- <-; exact H.
  - intros r. unfold rd_exact, fl. cbn. destruct (rx _ _ _) as [[[e g] rm] sc]. adv.
Qed.
Lemma t_to_end : forall n, erel twin lag fwd (rdop (rd_to_end n)).
Proof.
  intros n. apply t_rdop; [apply rd_to_end_fwd| |].
  - intros r o r' E. unfold rd_to_end in E. destruct (rte _ _ _) as [[[e g] rm] sc] eqn:Ex. intros H. apply (rte_calm _ _ _ _ _ _ _ Ex) in H.
    destruct (advance _ _); injection E as <- <-; exact H.
  - intros r. unfold rd_to_end, fl. cbn. destruct (rte _ _ _) as [[[e g] rm] sc]. adv.
Qed.
Lemma t_once : forall n, erel twin lag fwd (rdop (rd_once n)).
Proof.
  intros n. apply t_rdop; [apply rd_once_fwd| |].
  - intros r o r' E. unfold rd_once in E. destruct (r1 _ _ _) as [[x rm] sc] eqn:Ex. intros H. apply (r1_calm _ _ _ _ _ _ Ex) in H.
    destruct (advance _ _); injection E as <- <-; exact H.
  - intros r. unfold rd_once, fl. cbn. destruct (r1 _ _ _) as [[x rm] sc]. adv.
Qed.
Lemma t_drop : forall n, erel twin lag fwd (rdop (rd_drop n)).
Proof.
  intros n. apply t_rdop; [apply rd_drop_fwd| |].
  - intros r o r' E. unfold rd_drop in E. intros H. destruct (advance _ _); injection E as <- <-; exact H.
  - intros r. unfold rd_drop, fl. cbn. adv.
Qed.
Lemma t_peek : forall limit, erel twin lag fwd (rdop (fun r0 =>
  let '(x, r1) := rd_peek (peek_len limit (s_rem (r_stream r0))) r0 in (Some x, r1))).
Proof.
  intros limit. apply t_rdop.
  - intros r a r' E. destruct (rd_peek _ r) as [x r1] eqn:Ep. injection E as _ <-. apply (rd_peek_fwd _ _ _ _ Ep).
  - intros r o r' E H. unfold rd_peek in E. destruct (r1 _ _ _) as [[x rm] sc] eqn:Ex. apply (r1_calm _ _ _ _ _ _ Ex) in H.
    injection E as _ <-. exact H.
  - intros r. unfold rd_peek, fl. cbn. destruct (r1 _ _ _) as [[x rm] sc]. reflexivity.
Qed.
Lemma t_skip : forall n, erel twin lag fwd (rdop (skip_to n)).
Proof.
  intros n. split.
  - apply st_rdop. intros s a r E. apply skip_to_fwd in E. split; [reflexivity|]. split; [reflexivity|]. split; [exists []; reflexivity|exact E].
  - intros s1 s2 r t1 (T1 & T2 & T3 & ->) E Hp. unfold rdop, skip_to in *. cbn [p_rd set_rd fl r_pos].
    destruct (n <? r_pos (p_rd s1))%N eqn:En; [injection E as <- <-; congruence|].
    unfold skip_distance in *. rewrite T1 in E. cbn [r_seekable fl]. unfold skip_distance_plain in E.
    destruct (rte_nofail _ (s_rem (r_stream (p_rd s1))) (n - r_pos (p_rd s1)) T2) as (sc' & N' & Er).
    destruct (n - r_pos (p_rd s1))%N eqn:Ed.
    + right. destruct (s_sched (r_stream (p_rd s1))) eqn:Es; cbn [rte N.eqb] in E; injection E as <- <-;
      (eexists; split; [reflexivity|]); unfold twin, with_stream; cbn; rewrite T1; (split; [reflexivity|]); (split; [exact T2|]);
      (split; [lia|]); unfold fl; cbn; rewrite Es, N.add_0_r; reflexivity.
    + rewrite Er in E. injection E as <- <-. left. unfold lag. cbn.
      destruct (s_rem (r_stream (p_rd s1))) as [|b rm] eqn:Em.
      * right. rewrite dropN_skipn. apply skipn_nil.
      * left. rewrite lenN_takeN. unfold lenN. cbn [length]. lia.
Qed.
Lemma t_warn : forall w p, erel twin lag fwd (warn w p).
Proof.
  intros w p. split; [apply steps_qf; apply warn_quiet|].
  intros s1 s2 r t1 (T1 & T2 & T3 & ->) E _. right. unfold warn in *. cbn [p_handler set_rd p_log].
  destruct (p_handler s1) as [h|]; [destruct (h _)|]; injection E as <- <-; (eexists; split; [reflexivity|]); repeat split; assumption.
Qed.
Lemma twin_agrees : forall s1 s2, twin s1 s2 -> agrees s1 s2.
Proof. intros s1 s2 (_ & _ & _ & ->). constructor; reflexivity. Qed.
Lemma t_reader_pos : erel twin lag fwd reader_pos.
Proof. apply (e_same twin lag fwd fwd_pre); [reflexivity|]. intros s1 s2 (_ & _ & _ & ->). reflexivity. Qed.
Lemma t_run : forall O (p : rdprog O) limit, erel twin lag fwd (run_rd p limit).
Proof.
  intros O p. induction p as [r|n k IH|n k IH|k IH|amt k IH]; intros limit; cbn [run_rd].
  - apply (e_ret _ _ _ fwd_pre).
  - apply (e_bind _ _ _ fwd_pre lag_fwd); [apply t_once|]. intros r. apply IH.
  - destruct (N.of_nat n <=? limit)%N.
    + apply (e_bind _ _ _ fwd_pre lag_fwd); [apply t_reader_pos|]. intros p0. apply (e_bind _ _ _ fwd_pre lag_fwd); [apply t_exact|]. intros r.
      apply (e_bind _ _ _ fwd_pre lag_fwd); [apply t_reader_pos|]. intros p1. apply IH.
    + apply (e_bind _ _ _ fwd_pre lag_fwd); [apply t_reader_pos|]. intros p0. apply (e_bind _ _ _ fwd_pre lag_fwd); [apply t_to_end|]. intros r.
      apply (e_bind _ _ _ fwd_pre lag_fwd); [apply t_reader_pos|]. intros p1. apply IH.
  - apply (e_bind _ _ _ fwd_pre lag_fwd); [apply t_reader_pos|]. intros p0. apply (e_bind _ _ _ fwd_pre lag_fwd); [apply t_to_end|]. intros r.
    apply (e_bind _ _ _ fwd_pre lag_fwd); [apply t_reader_pos|]. intros p1. apply IH.
  - apply (e_bind _ _ _ fwd_pre lag_fwd); [apply t_peek|]. intros r. apply (e_bind _ _ _ fwd_pre lag_fwd); [apply t_drop|]. intros _. apply IH.
Qed.

Lemma twin_ops : forall O (l : list (op O)) s1 s2 rs t1, twin s1 s2 -> run_ops l s1 = (rs, t1) -> no_panic rs ->
  lag t1 \/ exists t2, run_ops l s2 = (rs, t2) /\ twin t1 t2.
Proof.
  intros O l s1 s2 rs t1. apply (e_run_ops twin lag fwd fwd_pre fwd_same lag_fwd twin_agrees).
  - intros h. apply (twin_upd (set_health h)); reflexivity.
  - intros h. apply (twin_upd (set_stack h)); reflexivity.
  - intros h. apply (twin_upd (set_last h)); reflexivity.
  - intros h. apply (twin_upd (set_top h)); reflexivity.
  - intros h. apply (twin_upd (set_attrs h)); reflexivity.
  - apply t_warn.
  - apply t_exact.
  - apply t_to_end.
  - apply t_skip.
  - apply t_run.
Qed.
End Twin.

Section Plain.
Context {env : Env}.

Lemma open_twin : forall data sched sk h p, nofail sched = true -> open_as data sched sk false h = Ok p ->
  forall sk', exists p', open_as data sched sk' true h = Ok p' /\ twin sk' p p'.
Proof.
  intros data sched sk h p HN H sk'. unfold open_as, any_parser, header_load, st_read_exact in *. cbn [s_sched s_rem s_off s_seeks] in *.
  destruct (rx sched data 23) as [[[e1 g1] r1] sc1] eqn:E1. destruct e1; [discriminate|]. apply (rx_calm _ _ _ _ _ _ _ E1) in HN.
  pose proof (rx_gen _ _ _ _ _ _ _ E1) as (_ & _ & G1 & _). specialize (G1 eq_refl).
  destruct (bytes_eqb g1 magic); [|discriminate]. cbn [s_sched s_rem s_off s_seeks] in *.
  destruct (rx sc1 r1 4) as [[[e2 g2] r2] sc2] eqn:E2. destruct e2; [discriminate|]. apply (rx_calm _ _ _ _ _ _ _ E2) in HN.
  pose proof (rx_gen _ _ _ _ _ _ _ E2) as (_ & _ & G2 & _). specialize (G2 eq_refl).
  destruct (ver_supported (le_dec g2)) eqn:Ev; [|discriminate]. unfold parser_create in *. rewrite Ev in *.
  injection H as <-. eexists. split; [reflexivity|]. split; [reflexivity|]. split; [exact HN|]. split; [|reflexivity].
  cbn. unfold lenN, header_len. lia.
Qed.

(** For every stream delivered without I/O errors, every client and every loader: as long as the
    position the plain parser reports is the true offset and there is something left to read —
    which says that nothing has been skipped — the seekable parser gives the same results, the
    same warnings and the same position.  Missing: runs that skip, for which the claim is false
    (see above). *)
Theorem C23_no_skip_partial : forall O data sched sk h p (l : list (op O)) rs s, nofail sched = true ->
  open_as data sched sk false h = Ok p -> run_ops l p = (rs, s) -> no_panic rs ->
  forall pos, position_of s = Some pos -> byte_pos pos = s_off (r_stream (p_rd s)) -> s_rem (r_stream (p_rd s)) <> [] ->
  forall sk', exists p' s', open_as data sched sk' true h = Ok p' /\ run_ops l p' = (rs, s') /\
    position_of s' = Some pos /\ p_log s' = p_log s /\ depth s' = depth s.
Proof.
  intros O data sched sk h p l rs s HN H E Hp pos P1 P2 P3 sk'.
  destruct (open_twin _ _ _ _ _ HN H sk') as (p' & H' & T).
  destruct (twin_ops sk' _ _ _ _ _ _ T E Hp) as [[L|L]|(s' & E' & (_ & _ & _ & ->))]; [|contradiction|].
  - exfalso. assert (X : byte_pos pos = r_pos (p_rd s)) by (unfold position_of in P1; destruct (p_stack s); [|destruct (p_top s =? 0)%N; [discriminate|]]; injection P1 as <-; reflexivity). lia.
  - exists p', (set_rd (fl sk' (p_rd s)) s). split; [exact H'|]. split; [exact E'|]. split; [exact P1|]. split; reflexivity.
Qed.

(** The same for runs to a good end of the document, which may use up the stream. *)
Theorem C23_good_end_partial :
  forall O data sched sk h (l : list (op O)) rs f s, nofail sched = true -> Forall consuming_op l ->
  completes data sched sk false h l rs f s ->
  forall pos, position_of s = Some pos -> byte_pos pos = consumed s ->
  forall sk', exists s', completes data sched sk' true h l rs f s' /\
    position_of s' = Some pos /\ p_log s' = p_log s /\ consumed s' = consumed s.
Proof.
  intros O data sched sk h l rs f s HN Hl H pos P1 P2 sk'.
  destruct (C20_rest_never_matters _ _ _ _ _ _ _ _ _ _ Hl H (dropN (consumed s) data ++ [x00])) as (s1 & H1 & C1 & R1 & L1 & Q1).
  destruct H1 as (p1 & O1 & E1 & rs0 & E0).
  assert (Hp : no_panic rs) by (subst rs; apply (ends_no_panic _ _ _ _ _ _ E1)).
  destruct (C23_no_skip_partial _ _ _ _ _ _ _ _ _ HN O1 E1 Hp pos) with (sk' := sk') as (p2 & s2 & O2 & E2 & Q2 & L2 & _).
  - congruence.
  - unfold consumed in *. congruence.
  - rewrite R1. destruct (dropN _ _); discriminate.
  - assert (H2 : completes (takeN (consumed s) data ++ dropN (consumed s) data ++ [x00]) sched sk' true h l rs f s2) by (exists p2; eauto).
    destruct (C20_rest_never_matters _ _ _ _ _ _ _ _ _ _ Hl H2 (dropN (consumed s) data)) as (s3 & H3 & C3 & R3 & L3 & Q3).
    assert (EC : consumed s2 = consumed s).
    { destruct (C20_consumed_in_stream _ _ _ _ _ _ _ _ _ _ H2) as (_ & B & K).
      destruct (C04_position_is_offset_seekable _ _ _ _ _ _ _ _ _ (open_opened _ _ _ _ _ _ O2) E2 Hp) as (pos2 & Z1 & Z2 & _).
      rewrite Q2 in Z1. injection Z1 as <-. unfold consumed in *. congruence. }
    destruct (C20_consumed_in_stream _ _ _ _ _ _ _ _ _ _ H) as (_ & B & _).
    rewrite EC in H3. replace (takeN (consumed s) (takeN (consumed s) data ++ dropN (consumed s) data ++ [x00])) with (takeN (consumed s) data) in H3
      by (rewrite app_assoc, takeN_dropN, !takeN_firstn, firstn_app; replace (N.to_nat (consumed s) - length data)%nat with 0%nat by (unfold lenN in B; lia); cbn; rewrite app_nil_r; reflexivity).
    rewrite takeN_dropN in H3. exists s3. split; [exact H3|]. split; [congruence|]. split; [congruence|congruence].
Qed.
End Plain.

(** A client that loads every attribute of the sample document, through a plain reader that
    delivers small pieces: the hypotheses of both theorems hold, the second with nothing after
    the document. *)
Definition plain_ok (data : list byte) (l : list (op aval)) : bool :=
  match open_as data choppy [] false None with
  | Ok p =>
      let '(rs, s) := run_ops (env:=release) l p in
      forallb (fun r => match r with Ok _ => true | _ => false end) rs && (length rs =? 16)%nat &&
      match position_of s with Some pos => (byte_pos pos =? consumed s)%N | None => false end &&
      match last rs Panic with Ok (BEvent (EvEndFbx (inr _))) => true | _ => false end
  | _ => false
  end.
Definition left_over (data : list byte) (l : list (op aval)) : N :=
  match open_as data choppy [] false None with
  | Ok p => lenN (s_rem (r_stream (p_rd (snd (run_ops (env:=release) l p)))))
  | _ => 0
  end.
Example plain_example : plain_ok (sample_doc 7400) whole_client = true /\ left_over (sample_doc 7400) whole_client = 0%N /\
  plain_ok longer whole_client = true /\ left_over longer whole_client = 300%N /\
  nofail choppy = true /\ Forall consuming_op whole_client.
Proof. repeat (split; [vm_compute; reflexivity|]). apply truncated_example. Qed.
Print Assumptions C23_plain_equals_seekable_refuted.
Print Assumptions C23_no_skip_partial.
Print Assumptions C23_good_end_partial.
