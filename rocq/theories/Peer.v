(** Two parsers at the same point of the same bytes behave alike, whatever came before. *)
Require Import Coq.Lists.List Coq.NArith.NArith Coq.ZArith.ZArith Coq.Bool.Bool Coq.micromega.Lia.
Require Import Verif.Base Verif.BaseFacts Verif.Utf8 Verif.Types Verif.Io Verif.IoFacts Verif.Parser Verif.MonadFacts Verif.Moves Verif.ParserRel Verif.PropsRel Verif.DocCursor.
Import ListNotations.

Section WithEnv.
Context {env : Env}.
Context (b1 b2 : list (warning * synpos)).

(** Agreement on the rest of the stream, on the parser fields, and on the warnings raised
    since the logs were [b1] and [b2]; handlers accept, I/O does not fail. *)
Record peer (s1 s2 : pstate) : Prop := mkPeer {
  e_agrees : agrees s1 s2;
  e_acc1 : accepts s1;
  e_acc2 : accepts s2;
  e_seekable : r_seekable (p_rd s1) = r_seekable (p_rd s2);
  e_calm1 : calm s1;
  e_calm2 : calm s2;
  e_log : exists l, p_log s1 = l ++ b1 /\ p_log s2 = l ++ b2
}.

Lemma peer_upd : forall f,
  (forall s1 s2, agrees s1 s2 -> agrees (f s1) (f s2)) ->
  (forall s, p_handler (f s) = p_handler s /\ p_log (f s) = p_log s /\ p_rd (f s) = p_rd s) ->
  forall s1 s2, peer s1 s2 -> peer (f s1) (f s2).
Proof.
  intros f Ha Hf s1 s2 [A B C D E F G]. destruct (Hf s1) as (X1 & X2 & X3), (Hf s2) as (Y1 & Y2 & Y3).
  constructor; unfold accepts, calm in *; rewrite ?X1, ?X2, ?X3, ?Y1, ?Y2, ?Y3; auto.
Qed.
Lemma peer_rd : forall s1 s2 r1 r2, peer s1 s2 ->
  r_pos r1 = r_pos r2 -> s_rem (r_stream r1) = s_rem (r_stream r2) ->
  r_seekable r1 = r_seekable r2 -> rcalm r1 -> rcalm r2 -> peer (set_rd r1 s1) (set_rd r2 s2).
Proof.
  intros s1 s2 r1 r2 [[A1 A2 A3 A4 A5 A6 A7 A8] B C D E F G] H1 H2 H3 H4 H5.
  constructor; auto. constructor; auto.
Qed.

Lemma pe_exact : forall n, rel peer (rdop (rd_exact n)) (rdop (rd_exact n)).
Proof.
  intros n. apply rl_rdop. intros s1 s2 H. pose proof H as [[A1 A2 A3 A4 A5 A6 A7 A8] B C D [E1 E2] [F1 F2] G].
  unfold rd_exact.
  destruct (rx_nofail _ (s_rem (r_stream (p_rd s1))) n E1) as (sc1 & N1 & X1). rewrite X1.
  destruct (rx_nofail _ (s_rem (r_stream (p_rd s2))) n F1) as (sc2 & N2 & X2). rewrite X2.
  rewrite A8. destruct (Nat.leb n (length (s_rem (r_stream (p_rd s2))))); rewrite A7;
  (destruct (advance (r_pos (p_rd s2)) _); cbn; (split; [reflexivity|]); apply peer_rd; unfold rcalm; cbn; auto; congruence).
Qed.
Lemma pe_to_end : forall n, rel peer (rdop (rd_to_end n)) (rdop (rd_to_end n)).
Proof.
  intros n. apply rl_rdop. intros s1 s2 H. pose proof H as [[A1 A2 A3 A4 A5 A6 A7 A8] B C D [E1 E2] [F1 F2] G].
  unfold rd_to_end.
  destruct (rte_nofail _ (s_rem (r_stream (p_rd s1))) n E1) as (sc1 & N1 & X1). rewrite X1.
  destruct (rte_nofail _ (s_rem (r_stream (p_rd s2))) n F1) as (sc2 & N2 & X2). rewrite X2.
  rewrite A8, A7.
  (destruct (advance (r_pos (p_rd s2)) _); cbn; (split; [reflexivity|]); apply peer_rd; unfold rcalm; cbn; auto; congruence).
Qed.
Lemma pe_seek_all : forall ps s1 s2, peer s1 s2 ->
  fst (seek_all ps (p_rd s1)) = fst (seek_all ps (p_rd s2)) /\
  peer (set_rd (snd (seek_all ps (p_rd s1))) s1) (set_rd (snd (seek_all ps (p_rd s2))) s2).
Proof.
  induction ps as [|p ps IH]; intros s1 s2 H.
  - cbn. split; [reflexivity|]. destruct H as [[A1 A2 A3 A4 A5 A6 A7 A8] B C D E F G]. constructor; auto. constructor; auto.
  - cbn [seek_all].
    assert (K : fst (seek_part p (p_rd s1)) = fst (seek_part p (p_rd s2)) /\
                peer (set_rd (snd (seek_part p (p_rd s1))) s1) (set_rd (snd (seek_part p (p_rd s2))) s2)).
    { pose proof H as [[A1 A2 A3 A4 A5 A6 A7 A8] B C D [E1 E2] [F1 F2] G].
      pose proof (fun o r' E => seek_part_calm p (p_rd s1) o r' E (conj E1 E2)) as K1.
      pose proof (fun o r' E => seek_part_calm p (p_rd s2) o r' E (conj F1 F2)) as K2.
      unfold seek_part in *. rewrite A7, A8 in *.
      destruct (s_seeks (r_stream (p_rd s1))) as [|[c|] sk1]; try discriminate E2;
      (destruct (s_seeks (r_stream (p_rd s2))) as [|[c'|] sk2]; try discriminate F2);
      (destruct (seek_move (r_pos (p_rd s2)) p); cbn; (split; [reflexivity|]); apply peer_rd; cbn; auto; first [eapply K1; reflexivity|eapply K2; reflexivity|split; assumption|congruence]). }
    destruct K as [K1 K2].
    destruct (seek_part p (p_rd s1)) as [o1 r1], (seek_part p (p_rd s2)) as [o2 r2]. cbn in K1, K2. subst o2.
    destruct o1 as [[e|]|]; [cbn; auto| |cbn; auto].
    specialize (IH _ _ K2). cbn in IH. exact IH.
Qed.
Lemma pe_skip : forall n, rel peer (rdop (skip_to n)) (rdop (skip_to n)).
Proof.
  intros n. apply rl_rdop. intros s1 s2 H. pose proof H as [[A1 A2 A3 A4 A5 A6 A7 A8] B C D [E1 E2] [F1 F2] G].
  unfold skip_to. rewrite A7. destruct (n <? r_pos (p_rd s2))%N.
  - cbn. split; [reflexivity|]. apply peer_rd; auto; split; auto.
  - unfold skip_distance. rewrite D. destruct (r_seekable (p_rd s2)).
    + unfold skip_distance_seekable. apply pe_seek_all. exact H.
    + unfold skip_distance_plain.
      destruct (rte_nofail _ (s_rem (r_stream (p_rd s1))) (n - r_pos (p_rd s2)) E1) as (sc1 & N1 & X1). rewrite X1.
      destruct (rte_nofail _ (s_rem (r_stream (p_rd s2))) (n - r_pos (p_rd s2)) F1) as (sc2 & N2 & X2). rewrite X2.
      rewrite A8. cbn [fst snd]. split; [reflexivity|]. apply peer_rd; unfold rcalm; cbn [with_stream r_stream r_pos r_seekable s_rem s_off s_sched s_seeks]; auto; try congruence; apply (e_seekable _ _ H).
Qed.
Lemma pe_warn : forall w p, rel peer (warn w p) (warn w p).
Proof.
  intros w p s1 s2 H. pose proof H as [[A1 A2 A3 A4 A5 A6 A7 A8] B C D E F (l & L1 & L2)].
  rewrite (warn_accepts w p s1 B), (warn_accepts w p s2 C). cbn [fst snd]. split; [reflexivity|].
  constructor; auto; [constructor; auto|]. exists ((w, p) :: l). cbn [p_log set_log]. rewrite L1, L2. split; reflexivity.
Qed.
Lemma pe_reader_pos : rel peer reader_pos reader_pos.
Proof. apply rl_gets. intros s1 s2 H. apply (g_pos _ _ (e_agrees _ _ H)). Qed.
Lemma pe_run : forall O (p : rdprog O) limit, whole_reads O p -> rel peer (run_rd p limit) (run_rd p limit).
Proof.
  intros O p limit H. revert limit. induction H as [r|n k Hk IH|k Hk IH]; intros limit; cbn [run_rd].
  - apply rl_ret.
  - destruct (N.of_nat n <=? limit)%N.
    + apply rl_bind; [apply pe_reader_pos|]. intros p0. apply rl_bind; [apply pe_exact|]. intros r.
      apply rl_bind; [apply pe_reader_pos|]. intros p1. apply IH.
    + apply rl_bind; [apply pe_reader_pos|]. intros p0. apply rl_bind; [apply pe_to_end|]. intros r.
      apply rl_bind; [apply pe_reader_pos|]. intros p1. apply IH.
  - apply rl_bind; [apply pe_reader_pos|]. intros p0. apply rl_bind; [apply pe_to_end|]. intros r.
    apply rl_bind; [apply pe_reader_pos|]. intros p1. apply IH.
Qed.
Lemma peer_runs : forall O (l : list (op O)) s1 s2, Forall regular l -> peer s1 s2 ->
  fst (run_ops l s1) = fst (run_ops l s2) /\ peer (snd (run_ops l s1)) (snd (run_ops l s2)).
Proof.
  intros O l s1 s2 Hl H. apply (r_run_ops peer whole_reads); auto.
  - intros. apply e_agrees. assumption.
  - intros h. apply (peer_upd (set_health h)); [|auto]. intros ? ? []. constructor; auto.
  - intros h. apply (peer_upd (set_stack h)); [|auto]. intros ? ? []. constructor; auto.
  - intros h. apply (peer_upd (set_last h)); [|auto]. intros ? ? []. constructor; auto.
  - intros h. apply (peer_upd (set_top h)); [|auto]. intros ? ? []. constructor; auto.
  - intros h. apply (peer_upd (set_attrs h)); [|auto]. intros ? ? []. constructor; auto.
  - apply pe_warn.
  - apply pe_exact.
  - apply pe_to_end.
  - apply pe_skip.
  - apply pe_run.
Qed.
Lemma peer_position : forall s1 s2, peer s1 s2 -> position_of s1 = position_of s2 /\ depth s1 = depth s2.
Proof.
  intros s1 s2 [[A B C D E F G I] _ _ _ _ _ _]. unfold position_of, depth. rewrite C, E, G. auto.
Qed.
End WithEnv.
