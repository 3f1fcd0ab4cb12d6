(** C57 and C58 for plain readers, as long as the parser has not skipped anything. *)
Require Import Coq.Lists.List Coq.NArith.NArith Coq.ZArith.ZArith Coq.Bool.Bool Coq.micromega.Lia.
Require Import Coq.Init.Byte.
Require Import ZifyBool ZifyNat ZifyN.
Require Import Verif.Base Verif.BaseFacts Verif.Utf8 Verif.Types Verif.Io Verif.IoFacts Verif.Moves Verif.Parser Verif.Loaders Verif.Writer Verif.Zlib Verif.SpecHist Verif.ParserPos
  Verif.Spec Verif.SpecLayout Verif.SpecTruth Verif.WriterSpec Verif.WriterNodes Verif.FooterFacts Verif.SpecFacts Verif.PropsWriter Verif.PropsDoc Verif.PropsRound Verif.PropsRel Verif.CutLoad Verif.PropsTrunc Verif.PropsPlain
  Verif.ParserHist Verif.Truth Verif.PropsTruth Verif.Samples Verif.SpecCrash Verif.PropsCrash.
Import ListNotations.

Section WithEnv.
Context {env : Env}.

Lemma run_ops_snoc : forall O (l : list (op O)) o p rs s, run_ops (l ++ [o]) p = (rs, s) -> no_panic rs ->
  exists rs0 p1 r, run_ops l p = (rs0, p1) /\ run_op o p1 = (r, s) /\ rs = rs0 ++ [r] /\ no_panic rs0 /\ length l = length rs0.
Proof.
  induction l as [|a l IH]; intros o p rs s H N.
  - apply run_ops_cons_inv in H; [|exact N]. destruct H as (r & s1 & rs' & A & B & C & -> & D). cbn in C. injection C as <- <-. exists [], p, r. cbn. auto.
  - cbn [app] in H. apply run_ops_cons_inv in H; [|exact N]. destruct H as (r & s1 & rs' & A & B & C & -> & D).
    destruct (IH _ _ _ _ C D) as (rs0 & p1 & r' & E & F & -> & G & L). exists (r :: rs0), p1, r'. cbn [run_ops]. rewrite A, E.
    destruct r; [| |contradiction]; (split; [reflexivity|]; split; [exact F|]; split; [reflexivity|]; split; [exact G|]; cbn; congruence).
Qed.
Lemma skips_app : forall O (l : list (op O)) o rs r, length l = length rs -> skips_fine (l ++ [o]) (rs ++ [r]) -> skips_fine l rs.
Proof.
  induction l as [|a l IH]; intros o [|x rs] r L H; try discriminate; [exact I|]. cbn [length] in L. injection L as L. cbn [app skips_fine] in *.
  destruct a; try (eapply IH; eassumption). destruct H as [H1 H2]. split; [exact H1|eapply IH; eassumption].
Qed.

(** The plain run and the seekable run that gives the same results. *)
Lemma plain_as_seekable : forall O data sched sk h (l : list (op O)) rs f s, nofail sched = true -> Forall consuming_op (l ++ [ONext]) ->
  completes data sched sk false h (l ++ [ONext]) rs f s -> skips_fine (l ++ [ONext]) rs ->
  forall pos, position_of s = Some pos -> byte_pos pos = consumed s ->
  exists p rs1 p1 p2, opened data sched [] true h p /\ run_ops l p = (rs1, p1) /\ no_panic rs1 /\ skips_fine l rs1 /\ run_op (@ONext O) p1 = (Ok (BEvent (EvEndFbx (inr f))), p2).
Proof.
  intros O data sched sk h l rs f s HN Hc H F pos P1 P2.
  destruct (C23_good_end_partial _ _ _ _ _ _ _ _ _ HN Hc H pos P1 P2 []) as (s' & (p & Op & E & rs0 & ->) & _).
  assert (N : no_panic (rs0 ++ [Ok (BEvent (EvEndFbx (inr f)))])) by (eapply ends_no_panic; exact E).
  destruct (run_ops_snoc _ _ _ _ _ _ E N) as (rs1 & p1 & r & A & B & X & N1 & L). apply app_inj_tail in X. destruct X as [-> <-].
  exists p, rs1, p1, s'. split.
  - unfold open_as in Op. unfold opened. destruct (any_parser (mkStream data 0 sched []) true) as [p0|e|]; try discriminate. injection Op as <-. exists p0. auto.
  - split; [exact A|]. split; [exact N1|]. split; [eapply skips_app; [exact L|exact F]|exact B].
Qed.

(** C57: the good end of a document read through a plain reader, for a parser whose position is
    the true offset at the end, that is, which skipped nothing on the way. *)
Theorem C57_plain_end_partial : forall O data sched sk h (l : list (op O)) rs f s pos, nofail sched = true -> Forall consuming_op (l ++ [ONext]) ->
  completes data sched sk false h (l ++ [ONext]) rs f s -> skips_fine (l ++ [ONext]) rs ->
  position_of s = Some pos -> byte_pos pos = consumed s ->
  exists ver off g ext, top_level data ver off /\ at_offset data off (end_marker ver) /\
    foot_ok g /\ dropN (off + header_size ver) data = enc_footer ver g ++ ext /\ f = footer_of ver g.
Proof.
  intros O data sched sk h l rs f s pos HN Hc H F P1 P2.
  destruct (plain_as_seekable _ _ _ _ _ _ _ _ _ HN Hc H F pos P1 P2) as (p & rs1 & p1 & p2 & Ho & A & N & F1 & E).
  destruct (C57_end_through_headers _ _ _ _ _ _ _ _ _ _ _ Ho A N F1 E) as (off & T & M & Q). destruct (Q f eq_refl) as (g & ext & G1 & G2 & G3).
  exists (p_ver p), off, g, ext. auto.
Qed.

(** C58: such a parser never comes to the good end of a file left behind before [finalize]. *)
Theorem C58_plain_unfinished_partial : forall ver data, left_behind ver data ->
  forall O sched sk h (l : list (op O)) rs f s pos, nofail sched = true -> Forall consuming_op (l ++ [ONext]) ->
  completes data sched sk false h (l ++ [ONext]) rs f s -> skips_fine (l ++ [ONext]) rs ->
  position_of s = Some pos -> byte_pos pos <> consumed s.
Proof.
  intros ver data L O sched sk h l rs f s pos HN Hc H F P1 P2.
  destruct (plain_as_seekable _ _ _ _ _ _ _ _ _ HN Hc H F pos P1 P2) as (p & rs1 & p1 & p2 & Ho & A & N & F1 & E).
  exact (C58_unfinished_partial _ _ L _ _ _ _ _ _ _ _ _ _ Ho A N F1 E).
Qed.
End WithEnv.

(** The hypotheses of both theorems are met by a client that loads every attribute of the sample
    document through a plain reader that delivers small pieces. *)
Definition whole_front : list (op aval) := Eval cbv in removelast whole_client.
Definition plain_start : pstate := Eval vm_compute in match open_as (sample_doc 7400) choppy [] false None with Ok p => p | _ => mkP 0 Finished [] None 0 (mkReader (mkStream [] 0 [] []) 0 true) None [] None end.
Definition plain_results : list (res perr (obs aval)) * pstate := Eval vm_compute in run_ops (env := release) (whole_front ++ [ONext]) plain_start.
Example C57_plain_ex : exists f pos, whole_client = whole_front ++ [ONext] /\ nofail choppy = true /\ Forall consuming_op (whole_front ++ [ONext]) /\
  completes (env := release) (sample_doc 7400) choppy [] false None (whole_front ++ [ONext]) (fst plain_results) f (snd plain_results) /\
  skips_fine (whole_front ++ [ONext]) (fst plain_results) /\
  position_of (snd plain_results) = Some pos /\ byte_pos pos = consumed (snd plain_results).
Proof.
  do 2 eexists. split; [reflexivity|]. split; [reflexivity|]. split; [exact (proj2 (proj2 (proj2 (proj2 (proj2 plain_example)))))|].
  split; [exists plain_start; split; [vm_compute; reflexivity|]; split; [vm_compute; reflexivity|exists (removelast (fst plain_results)); vm_compute; reflexivity]|].
  split; [exact I|]. split; vm_compute; reflexivity.
Qed.

(** A plain reader that skips: the position falls behind the true offset by the 19 bytes of the
    first node's attribute, so the second skip goes 19 bytes too far, into the attribute of the
    third node, which was never closed.  What the attribute holds there is reported as the end
    of the document, with a good footer.  The seekable parser, making the same calls, reports
    the start of the third node. *)
Module PlainCases.
Import PropsCrash.CrashCases.
Definition planted : list byte := end_marker 7400 ++ enc_footer 7400 (mkFoot good_unknown1 15).
Definition planted_calls : list wcall := [CNode s_a [ADirect false (zeros 14)]; CClose; CNode s_a []; CClose; CNode s_a [ADirect false planted]].
Definition skipping : list (op aval) := [ONext; OSkip; ONext; OSkip] ++ [ONext].
Definition planted_file : list byte := Eval vm_compute in left (written kw planted_calls).
Definition planted_start : pstate := Eval vm_compute in match open_as planted_file [AChunk 3] [] false None with Ok p => p | _ => plain_start end.
Definition planted_results : list (res perr (obs aval)) * pstate := Eval vm_compute in run_ops (env := release) skipping planted_start.
Theorem C58_plain_skip_refuted : exists f, left_behind (env := release) 7400 planted_file /\ nofail [AChunk 3] = true /\ Forall consuming_op skipping /\
  completes (env := release) planted_file [AChunk 3] [] false None skipping (fst planted_results) f (snd planted_results) /\ skips_fine skipping (fst planted_results) /\
  exists p s, opened planted_file [AChunk 3] [] true None p /\ run_ops (env := release) skipping p =
    ([Ok (BEvent (EvStart s_a)); Ok BSkipped; Ok (BEvent (EvStart s_a)); Ok BSkipped; Ok (BEvent (EvStart s_a))], s).
Proof.
  eexists. split; [|split; [reflexivity|]; split; [repeat constructor|]; split; [|split]].
  - change planted_file with (left (written kw planted_calls)). apply (Left_between 7400 kw planted_calls); [reflexivity|wrote_fine|named].
  - exists planted_start. split; [vm_compute; reflexivity|]. split; [vm_compute; reflexivity|]. exists (removelast (fst planted_results)). vm_compute. reflexivity.
  - cbn. repeat split; discriminate.
  - do 2 eexists. split; [eexists; split; vm_compute; reflexivity|vm_compute; reflexivity].
Qed.
End PlainCases.
