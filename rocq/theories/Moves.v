(** How far each piece of the parser moves the reader. *)
Require Import Coq.Lists.List Coq.NArith.NArith Coq.ZArith.ZArith Coq.Bool.Bool Coq.micromega.Lia.
Require Import ZifyBool ZifyNat ZifyN.
Require Import Verif.Base Verif.BaseFacts Verif.Utf8 Verif.Types Verif.Io Verif.IoFacts Verif.Parser Verif.MonadFacts Verif.Zlib.
Import ListNotations.
Ltac Zify.zify_post_hook ::= Z.div_mod_to_equations.

(** No read and no seek to come fails. *)
Definition rcalm (r : reader) : Prop :=
  nofail (s_sched (r_stream r)) = true /\ noseekfail (s_seeks (r_stream r)) = true.
Definition calm (s : pstate) : Prop := rcalm (p_rd s).

(** The reader advanced by [d] bytes, nothing else changed. *)
Definition moved (d : N) (s s' : pstate) : Prop :=
  s' = set_rd (p_rd s') s /\ rd_moved d d (p_rd s) (p_rd s') /\ (calm s -> calm s').

Lemma moved_0 : forall s, moved 0 s s.
Proof. intros s. split; [destruct s; reflexivity|]. split; [apply rd_moved_0 | auto]. Qed.
Lemma moved_trans : forall d d' a b c, moved d a b -> moved d' b c -> moved (d + d') a c.
Proof.
  intros d d' a b c (E1 & M1 & C1) (E2 & M2 & C2). split; [|split].
  - rewrite E2 at 1. rewrite E1. reflexivity.
  - apply (rd_moved_trans _ _ _ _ _ _ _ M1 M2).
  - auto.
Qed.

Lemma rx_calm : forall sc rem n e got rem' sc', rx sc rem n = (e, got, rem', sc') -> nofail sc = true -> nofail sc' = true.
Proof.
  intros sc rem n e got rem' sc' H Hn. destruct (rx_nofail sc rem n Hn) as (s1 & H1 & E). rewrite E in H.
  destruct (Nat.leb n (length rem)); injection H as _ _ _ <-; exact H1.
Qed.
Lemma rte_calm : forall sc rem n e got rem' sc', rte sc rem n = (e, got, rem', sc') -> nofail sc = true -> nofail sc' = true.
Proof.
  intros sc rem n e got rem' sc' H Hn. destruct (rte_nofail sc rem n Hn) as (s1 & H1 & E). rewrite E in H.
  injection H as _ _ _ <-; exact H1.
Qed.
Lemma r1_calm : forall sc rem n x rem' sc', r1 sc rem n = (x, rem', sc') -> nofail sc = true -> nofail sc' = true.
Proof.
  intros sc rem n x rem' sc' H Hn. unfold r1 in H. destruct n; [injection H as _ _ <-; exact Hn|]. destruct sc as [|[k| |c] t]; try discriminate;
    injection H as _ _ <-; auto.
Qed.

Lemma rd_exact_calm : forall n r o r', rd_exact n r = (o, r') -> rcalm r -> rcalm r'.
Proof.
  intros n r o r' H [H1 H2]. unfold rd_exact in H.
  destruct (rx _ _ _) as [[[e got] rem'] sc'] eqn:E. apply rx_calm in E; [|exact H1].
  destruct (advance _ _); injection H as _ <-; split; assumption.
Qed.
Lemma rd_to_end_calm : forall n r o r', rd_to_end n r = (o, r') -> rcalm r -> rcalm r'.
Proof.
  intros n r o r' H [H1 H2]. unfold rd_to_end in H.
  destruct (rte _ _ _) as [[[e got] rem'] sc'] eqn:E. apply rte_calm in E; [|exact H1].
  destruct (advance _ _); injection H as _ <-; split; assumption.
Qed.
Lemma rd_once_calm : forall n r o r', rd_once n r = (o, r') -> rcalm r -> rcalm r'.
Proof.
  intros n r o r' H [H1 H2]. unfold rd_once in H.
  destruct (r1 _ _ _) as [[x rem'] sc'] eqn:E. apply r1_calm in E; [|exact H1].
  destruct (advance _ _); injection H as _ <-; split; assumption.
Qed.
Lemma rd_peek_calm : forall n r o r', rd_peek n r = (o, r') -> rcalm r -> rcalm r'.
Proof.
  intros n r o r' H [H1 H2]. unfold rd_peek in H.
  destruct (r1 _ _ _) as [[x rem'] sc'] eqn:E. apply r1_calm in E; [|exact H1].
  injection H as _ <-; split; assumption.
Qed.
Lemma rd_drop_calm : forall n r o r', rd_drop n r = (o, r') -> rcalm r -> rcalm r'.
Proof.
  intros n r o r' H [H1 H2]. unfold rd_drop in H. destruct (advance _ _); injection H as _ <-; split; assumption.
Qed.
Lemma seek_part_calm : forall n r o r', seek_part n r = (o, r') -> rcalm r -> rcalm r' /\ forall e, o <> Some (Some e).
Proof.
  intros n r o r' H [H1 H2]. unfold seek_part in H. destruct (s_seeks (r_stream r)) as [|[c|] sk]; [|discriminate H2|];
  destruct (seek_move _ _); injection H as <- <-; (split; [split; assumption|discriminate]).
Qed.
Lemma seek_all_calm : forall ps r o r', seek_all ps r = (o, r') -> rcalm r -> rcalm r' /\ forall e, o <> Some (Some e).
Proof.
  induction ps as [|p ps IH]; intros r o r' H Hc; cbn in H.
  - injection H as <- <-. split; [exact Hc|discriminate].
  - destruct (seek_part p r) as [[[e|]|] r1] eqn:E; pose proof (seek_part_calm _ _ _ _ E Hc) as [K1 K2].
    + exfalso. eapply K2. reflexivity.
    + eapply IH; eauto.
    + injection H as <- <-. split; [exact K1|discriminate].
Qed.
Lemma skip_to_calm : forall n r o r', skip_to n r = (o, r') -> rcalm r -> rcalm r' /\ forall e, o <> Some (Some e).
Proof.
  intros n r o r' H Hc. unfold skip_to in H. destruct (n <? r_pos r)%N.
  - injection H as <- <-. split; [exact Hc|discriminate].
  - unfold skip_distance in H. destruct (r_seekable r).
    + eapply seek_all_calm; eauto.
    + unfold skip_distance_plain in H. destruct Hc as [H1 H2].
      destruct (rte_nofail _ (s_rem (r_stream r)) (n - r_pos r) H1) as (sc & Hs & E). rewrite E in H.
      injection H as <- <-. split; [split; assumption|discriminate].
Qed.

(** [m] moves the reader by at most [K] bytes of the stream. *)
Definition within (K : N) (s s' : pstate) : Prop :=
  exists d, (d <= K)%N /\ (d <= lenN (s_rem (r_stream (p_rd s))))%N /\ moved d s s'.
Definition mv (K : N) {A} (m : M A) : Prop := forall s r s', m s = (r, s') -> r <> Panic -> within K s s'.

Lemma within_0 : forall K s, within K s s.
Proof. intros K s. exists 0%N. split; [lia|]. split; [lia | apply moved_0]. Qed.
Lemma within_trans : forall K K' a b c, within K a b -> within K' b c -> within (K + K') a c.
Proof.
  intros K K' a b c (d & Hd & Hl & H) (d' & Hd' & Hl' & H'). exists (d + d')%N.
  split; [lia|]. split; [|apply (moved_trans _ _ _ _ _ H H')].
  destruct H as (_ & (E & _) & _). rewrite E, lenN_dropN in Hl'. lia.
Qed.
Lemma within_le : forall K K' a b, (K <= K')%N -> within K a b -> within K' a b.
Proof. intros K K' a b HK (d & Hd & Hl & H). exists d. split; [lia|]. auto. Qed.

Lemma mv_rdop : forall K A (f : reader -> option A * reader),
  (forall r o r', f r = (Some o, r') -> exists d, (d <= K)%N /\ (d <= lenN (s_rem (r_stream r)))%N /\ rd_moved d d r r') ->
  (forall r o r', f r = (o, r') -> rcalm r -> rcalm r') -> mv K (rdop f).
Proof.
  intros K A f H1 H2 s r s' E Hp. unfold rdop in E. destruct (f (p_rd s)) as [[a|] r'] eqn:Ef; injection E as <- <-; [|congruence].
  destruct (H1 _ _ _ Ef) as (d & Hd & Hl & M). exists d. split; [exact Hd|]. split; [exact Hl|].
  split; [reflexivity|]. split; [exact M|]. intros Hc. eapply H2; eauto.
Qed.
Lemma mv_exact : forall n, mv (N.of_nat n) (rdop (rd_exact n)).
Proof.
  intros n. apply mv_rdop; [|intros; eapply rd_exact_calm; eauto].
  intros r o r' H. apply rd_exact_spec in H. destruct o as [e|got].
  - destruct H as (d & (H1 & H2) & M & _). exists d. split; [lia|]. auto.
  - destruct H as (H1 & H2 & M & _). exists (N.of_nat n). split; [lia|]. split; [|exact M].
    rewrite H1, lenN_app. unfold lenN. lia.
Qed.
Lemma mv_to_end : forall n, mv n (rdop (rd_to_end n)).
Proof.
  intros n. apply mv_rdop; [|intros; eapply rd_to_end_calm; eauto].
  intros r [e got] r' H. apply rd_to_end_spec in H. destruct H as (H1 & H2 & M & _).
  exists (lenN got). split; [exact H2|]. split; [|exact M]. rewrite H1, lenN_app. lia.
Qed.
Lemma mv_drop : forall n, mv n (rdop (rd_drop n)).
Proof.
  intros n. apply mv_rdop; [|intros; eapply rd_drop_calm; eauto].
  intros r o r' H. apply rd_drop_spec in H. destruct H as (d & _ & H1 & H2 & M & _). exists d. auto.
Qed.
Lemma mv_ret : forall K A (a : A), mv K (ret a).
Proof. intros K A a s r s' [= <- <-] _. apply within_0. Qed.
Lemma mv_throw : forall K A e, mv K (@throw A e).
Proof. intros K A a s r s' [= <- <-] _. apply within_0. Qed.
Lemma mv_panic : forall K A, mv K (@panic A).
Proof. intros K A s r s' [= <- <-] H. congruence. Qed.
Lemma mv_gets : forall K A (f : pstate -> A), mv K (gets f).
Proof. intros K A a s r s' [= <- <-] _. apply within_0. Qed.
Lemma mv_bind : forall K K' A B (m : M A) (f : A -> M B), mv K m -> (forall a, mv K' (f a)) -> mv (K + K') (bind m f).
Proof.
  intros K K' A B m f Hm Hf s r s' H Hp. mstep H as a s1 E.
  - eapply within_trans; [eapply Hm; eauto; discriminate | eapply Hf; eauto].
  - subst r. apply (within_le K); [lia|]. eapply Hm; [exact E|discriminate].
  - congruence.
Qed.
Lemma mv_le : forall K K' A (m : M A), (K <= K')%N -> mv K m -> mv K' m.
Proof. intros K K' A m HK H s r s' E Hp. eapply within_le; eauto. Qed.

(** The distance is what the cached position says. *)
Lemma within_pos : forall K s s', within K s s' ->
  moved (r_pos (p_rd s') - r_pos (p_rd s)) s s' /\ (r_pos (p_rd s') - r_pos (p_rd s) <= K)%N /\
  (r_pos (p_rd s) <= r_pos (p_rd s'))%N.
Proof.
  intros K s s' (d & Hd & Hl & M). pose proof M as (_ & (_ & _ & E & _) & _).
  replace (r_pos (p_rd s') - r_pos (p_rd s))%N with d by lia. split; [exact M|]. lia.
Qed.

Section WithEnv.
Context {env : Env}.

(** Whatever a loader does with the reader of a binary or string attribute, it stays within
    the limit. *)
Lemma run_rd_mv : forall O (p : rdprog O) limit, mv limit (run_rd p limit).
Proof.
  intros O p. induction p as [r|n k IH|n k IH|k IH|amt k IH]; intros limit s r0 s' H Hp; cbn [run_rd] in H.
  - apply (mv_ret _ _ _ _ _ _ H Hp).
  - mstep H as x s1 E; [| subst r0 | congruence].
    + unfold rdop in E. destruct (rd_once _ (p_rd s)) as [[x'|] r1] eqn:E1; [|discriminate]; injection E as <- <-.
      pose proof (rd_once_calm _ _ _ _ E1) as Hc. apply rd_once_spec in E1.
      set (s1 := set_rd r1 s) in *.
      assert (W : within (match x' with inr bs => lenN bs | inl _ => 0 end) s s1 /\
                  (match x' with inr bs => lenN bs | inl _ => 0 end <= limit)%N).
      { destruct x' as [e|got].
        - destruct E1 as [M _]. split; [|lia]. exists 0%N. split; [lia|]. split; [lia|].
          split; [reflexivity|]. split; [exact M | exact Hc].
        - destruct E1 as (H1 & H2 & M & _). split.
          + exists (lenN got). split; [lia|]. split; [rewrite H1, lenN_app; lia|].
            split; [reflexivity|]. split; [exact M | exact Hc].
          + unfold lenN. lia. }
      destruct W as [W1 W2]. eapply within_le; [|eapply within_trans; [exact W1 | eapply IH; eauto]]. lia.
    + unfold rdop in E. destruct (rd_once _ (p_rd s)) as [[x'|] r1]; discriminate.
  - destruct (N.of_nat n <=? limit)%N eqn:El.
    + unfold reader_pos in H. rewrite bind_gets in H. mstep H as x s1 E; [| subst r0 | congruence].
      * pose proof (mv_exact _ _ _ _ E ltac:(discriminate)) as W_; clear E; rename W_ into E. rewrite bind_gets in H. pose proof (IH _ _ _ _ _ H Hp) as W_; clear H; rename W_ into H.
        pose proof (within_pos _ _ _ E) as (_ & K1 & K2). destruct E as (d & Hd & Hl & M).
        pose proof M as (_ & (_ & _ & Ep & _) & _).
        eapply within_le; [|eapply within_trans; [|exact H]]; [|exists d; split; [apply N.le_refl|auto]]. lia.
      * pose proof (mv_exact _ _ _ _ E ltac:(discriminate)) as W_; clear E; rename W_ into E. eapply within_le; [|exact E]. lia.
    + unfold reader_pos in H. rewrite bind_gets in H. mstep H as x s1 E; [| subst r0 | congruence].
      * pose proof (mv_to_end _ _ _ _ E ltac:(discriminate)) as W_; clear E; rename W_ into E. rewrite bind_gets in H. pose proof (IH _ _ _ _ _ H Hp) as W_; clear H; rename W_ into H.
        pose proof (within_pos _ _ _ E) as (_ & K1 & K2). destruct E as (d & Hd & Hl & M).
        pose proof M as (_ & (_ & _ & Ep & _) & _).
        eapply within_le; [|eapply within_trans; [|exact H]]; [|exists d; split; [apply N.le_refl|auto]]. lia.
      * pose proof (mv_to_end _ _ _ _ E ltac:(discriminate)) as W_; clear E; rename W_ into E. exact E.
  - unfold reader_pos in H. rewrite bind_gets in H. mstep H as x s1 E; [| subst r0 | congruence].
    * pose proof (mv_to_end _ _ _ _ E ltac:(discriminate)) as W_; clear E; rename W_ into E. rewrite bind_gets in H. pose proof (IH _ _ _ _ _ H Hp) as W_; clear H; rename W_ into H.
      pose proof (within_pos _ _ _ E) as (_ & K1 & K2). destruct E as (d & Hd & Hl & M).
      pose proof M as (_ & (_ & _ & Ep & _) & _).
      eapply within_le; [|eapply within_trans; [|exact H]]; [|exists d; split; [apply N.le_refl|auto]]. lia.
    * pose proof (mv_to_end _ _ _ _ E ltac:(discriminate)) as W_; clear E; rename W_ into E. exact E.
  - mstep H as x s1 E; [| subst r0 | congruence].
    + unfold rdop in E.
      destruct (rd_peek (peek_len limit (s_rem (r_stream (p_rd s)))) (p_rd s)) as [x' r1] eqn:E1. injection E as <- <-.
      pose proof (rd_peek_calm _ _ _ _ E1) as Hc. apply rd_peek_spec in E1. destruct E1 as (M & _ & L & _).
      assert (W : within 0 s (set_rd r1 s)).
      { exists 0%N. split; [lia|]. split; [lia|]. split; [reflexivity|]. split; [exact M | exact Hc]. }
      set (used := N.min (N.of_nat (amt x')) _) in H.
      assert (Hu : (used <= limit)%N).
      { subst used. pose proof (peek_len_le_n limit (s_rem (r_stream (p_rd s)))). destruct x' as [e|bs]; unfold lenN in *; lia. }
      mstep H as y s2 E2; [| subst r0 | congruence].
      * pose proof (mv_drop _ _ _ _ E2 ltac:(discriminate)) as W_; clear E2; rename W_ into E2. pose proof (IH _ _ _ _ _ H Hp) as W_; clear H; rename W_ into H.
        eapply within_le; [|eapply within_trans; [exact W|eapply within_trans; [exact E2|exact H]]]. lia.
      * pose proof (mv_drop _ _ _ _ E2 ltac:(discriminate)) as W_; clear E2; rename W_ into E2. eapply within_le; [|eapply within_trans; [exact W|exact E2]]. lia.
    + unfold rdop in E.
      destruct (rd_peek (peek_len limit (s_rem (r_stream (p_rd s)))) (p_rd s)) as [x' r1] eqn:E1. discriminate.
Qed.


(** *** Arrays stored directly *)

Lemma try_read_calm : forall n s r s', try_read n s = (Ok r, s') -> calm s ->
  calm s' /\ within (N.of_nat n) s s' /\
  match r with
  | inr got => s_rem (r_stream (p_rd s)) = got ++ s_rem (r_stream (p_rd s')) /\ length got = n /\ moved (N.of_nat n) s s'
  | inl _ => s_rem (r_stream (p_rd s')) = [] /\ (lenN (s_rem (r_stream (p_rd s))) < N.of_nat n)%N
  end.
Proof.
  intros n s r s' H Hc. unfold try_read in H. pose proof (mv_exact _ _ _ _ H ltac:(discriminate)) as W.
  assert (Hc' : calm s') by (destruct W as (d & _ & _ & _ & _ & K); auto).
  split; [exact Hc'|]. split; [exact W|].
  unfold rdop in H. destruct (rd_exact n (p_rd s)) as [[x|] r'] eqn:E; [|discriminate]. injection H as <- <-.
  pose proof E as E'. apply rd_exact_spec in E'. destruct x as [e|got].
  - assert (e = IoEof).
    { unfold rd_exact in E. destruct Hc as [H1 H2].
      destruct (rx_nofail _ (s_rem (r_stream (p_rd s))) n H1) as (sc & _ & Ex). rewrite Ex in E.
      destruct (Nat.leb n (length (s_rem (r_stream (p_rd s))))); destruct (advance _ _); injection E; congruence. }
    destruct E' as (d & _ & _ & _ & K). apply K. assumption.
  - destruct E' as (H1 & H2 & M & _). split; [exact H1|]. split; [exact H2|]. split; [reflexivity|]. split; [exact M|]. intros _. exact Hc'.
Qed.

(** Progress of an iterator over directly stored elements of [z] bytes. *)
Definition dir_step (z : N) (it : iterst) (s : pstate) (it' : iterst) (s' : pstate) : Prop :=
  it_dec it' = DDirect /\ (calm s -> calm s') /\
  exists d, moved d s s' /\ (d <= lenN (s_rem (r_stream (p_rd s))))%N /\ (d <= z * it_rest it)%N /\
    ((d + z * it_rest it' <= z * it_rest it)%N \/ s_rem (r_stream (p_rd s')) = []).

Lemma dir_refl : forall z it s, it_dec it = DDirect -> dir_step z it s it s.
Proof.
  intros z it s H. split; [exact H|]. split; [auto|]. exists 0%N. split; [apply moved_0|]. split; [lia|]. split; [lia|]. left. lia.
Qed.
Lemma dir_trans : forall z a s b t c u, dir_step z a s b t -> dir_step z b t c u -> dir_step z a s c u.
Proof.
  intros z a s b t c u (H1 & C1 & d1 & M1 & R1 & B1 & K1) (H2 & C2 & d2 & M2 & R2 & B2 & K2).
  split; [exact H2|]. split; [auto|]. exists (d1 + d2)%N. split; [apply (moved_trans _ _ _ _ _ M1 M2)|].
  destruct M1 as (_ & (E & _) & _). pose proof R2 as R2'. rewrite E, lenN_dropN in R2'. split; [lia|].
  destruct K1 as [K1|K1].
  - split; [lia|]. destruct K2 as [K2|K2]; [left; lia | right; exact K2].
  - rewrite K1, lenN_nil in R2. assert (d2 = 0)%N by lia. subst d2. split; [lia|]. right.
    destruct M2 as (_ & (E2 & _) & _). rewrite E2, K1. apply dropN_all. rewrite lenN_nil. lia.
Qed.

Lemma it_next_dir : forall A (el : elem A) it s it' o s', it_dec it = DDirect -> calm s ->
  it_next el it s = (Ok (it', o), s') -> dir_step (N.of_nat (el_size el)) it s it' s'.
Proof.
  intros A el it s it' o s' Hd Hc H. unfold it_next in H. destruct (it_rest it =? 0)%N eqn:E0.
  - injection H as <- _ <-. apply dir_refl. exact Hd.
  - apply N.eqb_neq in E0. rewrite Hd in H. cbn [dec_read] in H. rewrite bind_assoc in H.
    mstep H as r s1 E; try discriminate. rewrite bind_ret in H.
    apply try_read_calm in E; [|exact Hc]. destruct E as (Hc' & W & K).
    destruct r as [e|got]; injection H as <- _ <-; (split; [reflexivity|]); (split; [auto|]).
    + destruct K as [K1 K2]. destruct W as (d & Wd & Wl & M). exists d. split; [exact M|]. split; [exact Wl|].
      cbn [it_rest]. split; [nia|]. right. exact K1.
    + destruct K as (K1 & K2 & M). exists (N.of_nat (el_size el)). split; [exact M|].
      split; [rewrite K1, lenN_app; unfold lenN; lia|]. cbn [it_rest]. split; [nia|]. left. nia.
Qed.

Lemma collect_dir : forall A (el : elem A) n it acc s it' r s', it_dec it = DDirect -> calm s ->
  nloop n (collect_step el) (it, acc) s = (Ok r, s') ->
  it' = match r with inl (i, _) => i | inr (i, _) => i end ->
  dir_step (N.of_nat (el_size el)) it s it' s'.
Proof.
  intros A el. induction n as [|n IH]; intros it acc s it' r s' Hd Hc H Hi; cbn [nloop] in H.
  - injection H as <- <-. subst it'. apply dir_refl. exact Hd.
  - mstep H as x s1 E; try discriminate. unfold collect_step in E. mstep E as y s2 E1; try discriminate.
    destruct y as [it1 o]. pose proof (it_next_dir _ _ _ _ _ _ _ Hd Hc E1) as D.
    destruct o as [[e|v]|].
    + injection E as <- <-. injection H as <- <-. subst it'. exact D.
    + injection E as <- <-. eapply dir_trans; [exact D|]. eapply IH; eauto; apply D. exact Hc.
    + injection E as <- <-. injection H as <- <-. subst it'. exact D.
Qed.

Lemma run_seq_dir : forall A O (el : elem A) (p : seqprog A O) it s it' v s', it_dec it = DDirect -> calm s ->
  run_seq el p it s = (Ok (it', v), s') -> dir_step (N.of_nat (el_size el)) it s it' s'.
Proof.
  intros A O el p. induction p as [r|k IH|k IH]; intros it s it' v s' Hd Hc H; cbn [run_seq] in H.
  - injection H as <- _ <-. apply dir_refl. exact Hd.
  - mstep H as x s1 E; try discriminate. destruct x as [it1 o].
    pose proof (it_next_dir _ _ _ _ _ _ _ Hd Hc E) as D. eapply dir_trans; [exact D|].
    eapply IH; eauto; apply D. exact Hc.
  - mstep H as x s1 E; try discriminate. destruct x as [it1 o].
    assert (D : dir_step (N.of_nat (el_size el)) it s it1 s1).
    { unfold it_collect in E. mstep E as y s2 E1; try discriminate. rewrite mloop_nloop in E1.
      destruct y as [y|[i2 o2]]; [discriminate|]. injection E as <- _ <-. eapply collect_dir; eauto. }
    eapply dir_trans; [exact D|]. eapply IH; eauto; apply D. exact Hc.
Qed.

(** *** Well-formed array data *)

(** The decoder will produce [raw] next, using at most [L] more bytes of the stream. *)
Definition supplies (d : decoder) (raw : list byte) (L : N) (s : pstate) : Prop :=
  match d with
  | DDirect => L = lenN raw /\ exists rest, s_rem (r_stream (p_rd s)) = raw ++ rest
  | DZlib st =>
      exists full rest st0 c0 ns rs used extra, zrun z_open (z_enc full ++ rest) = (inr st0, c0) /\
        zreads ns st0 c0 = (rs, st, s_rem (r_stream (p_rd s))) /\
        s_rem (r_stream (p_rd s)) = dropN used (z_enc full ++ rest) /\ (used + L = lenN (z_enc full))%N /\
        skipn (list_sum ns) (concat full) = raw ++ extra /\ (list_sum ns <= length (concat full))%nat
  end.

Definition room (s : pstate) : Prop :=
  (r_pos (p_rd s) + lenN (s_rem (r_stream (p_rd s))) < pow2_64)%N.
Lemma room_moved : forall d s s', moved d s s' -> (d <= lenN (s_rem (r_stream (p_rd s))))%N -> room s -> room s'.
Proof.
  intros d s s' (_ & (E1 & _ & E2 & _) & _) Hd H. unfold room in *. rewrite E1, E2, lenN_dropN. lia.
Qed.

Lemma try_read_ok : forall n s bs rest, calm s -> room s -> s_rem (r_stream (p_rd s)) = bs ++ rest -> length bs = n ->
  exists s', try_read n s = (Ok (inr bs), s') /\ moved (N.of_nat n) s s' /\ s_rem (r_stream (p_rd s')) = rest.
Proof.
  intros n s bs rest Hc Hr E Hl. unfold try_read, rdop.
  destruct (rd_exact n (p_rd s)) as [[[e|got]|] r'] eqn:Er.
  - exfalso. assert (H : try_read n s = (Ok (inl e), set_rd r' s)) by (unfold try_read, rdop; rewrite Er; reflexivity).
    apply try_read_calm in H; [|exact Hc]. destruct H as (_ & _ & _ & H). rewrite E, lenN_app in H. unfold lenN in H. lia.
  - exists (set_rd r' s). pose proof (rd_exact_calm _ _ _ _ Er) as Hk. apply rd_exact_spec in Er. destruct Er as (H1 & H2 & M & _).
    rewrite E in H1. assert (got = bs /\ s_rem (r_stream r') = rest) as [-> <-].
    { assert (L : length bs = length got) by lia. clear - H1 L. revert got H1 L.
      induction bs as [|b bs IH]; intros [|g got] H1 L; try discriminate; [auto|].
      cbn in H1. injection H1 as <- H1. destruct (IH got H1) as [-> ->]; auto. }
    split; [reflexivity|]. split; [|reflexivity]. split; [reflexivity|]. split; [exact M|]. intros _. apply Hk. exact Hc.
  - exfalso. apply rd_exact_spec in Er. unfold room in Hr. lia.
Qed.

Lemma rdrop_ok : forall n s, calm s -> room s -> (n <= lenN (s_rem (r_stream (p_rd s))))%N ->
  exists s', rdop (rd_drop n) s = (Ok tt, s') /\ moved n s s'.
Proof.
  intros n s Hc Hr Hn. unfold rdop. destruct (rd_drop n (p_rd s)) as [[[]|] r'] eqn:E.
  - exists (set_rd r' s). split; [reflexivity|]. pose proof (rd_drop_calm _ _ _ _ E) as Hk. apply rd_drop_spec in E.
    destruct E as (d & Hd & _ & _ & M & _). unfold clip in Hd. assert (d = n) by lia. subst d.
    split; [reflexivity|]. split; [rewrite H in M; exact M|]. intros _. apply Hk. exact Hc.
  - exfalso. apply rd_drop_spec in E. unfold room in Hr. lia.
Qed.

Lemma moved_rem : forall d s s', moved d s s' -> s_rem (r_stream (p_rd s')) = dropN d (s_rem (r_stream (p_rd s))).
Proof. intros d s s' (_ & (E & _) & _). exact E. Qed.

Lemma try_read_eof : forall n s, calm s -> room s -> (length (s_rem (r_stream (p_rd s))) < n)%nat ->
  exists s', try_read n s = (Ok (inl IoEof), s') /\ moved (lenN (s_rem (r_stream (p_rd s)))) s s' /\ s_rem (r_stream (p_rd s')) = [].
Proof.
  intros n s [Hc Hk] Hr Hn. unfold try_read, rdop, rd_exact.
  destruct (rx_nofail _ (s_rem (r_stream (p_rd s))) n Hc) as (sc' & N' & E). rewrite E.
  destruct (Nat.leb_spec n (length (s_rem (r_stream (p_rd s))))); [lia|].
  unfold advance. unfold room in Hr. destruct (N.ltb_spec (r_pos (p_rd s) + lenN (s_rem (r_stream (p_rd s)))) pow2_64); [|lia].
  eexists. split; [reflexivity|]. split; [|reflexivity]. split; [reflexivity|]. split.
  - unfold rd_moved. cbn. rewrite dropN_skipn, skipn_all2 by (unfold lenN; lia). auto.
  - intros _. split; [exact N'|exact Hk].
Qed.

Lemma to_end_mv : forall n s, calm s -> room s ->
  exists s', rdop (rd_to_end n) s = (Ok (None, takeN n (s_rem (r_stream (p_rd s)))), s') /\
    moved (N.min n (lenN (s_rem (r_stream (p_rd s))))) s s'.
Proof.
  intros n s [Hc Hk] Hr. unfold rdop, rd_to_end.
  destruct (rte_nofail _ (s_rem (r_stream (p_rd s))) n Hc) as (sc' & N' & E). rewrite E.
  unfold advance. unfold room in Hr. rewrite lenN_takeN.
  destruct (N.ltb_spec (r_pos (p_rd s) + N.min n (lenN (s_rem (r_stream (p_rd s))))) pow2_64); [|lia].
  eexists. split; [reflexivity|]. split; [reflexivity|]. split.
  - unfold rd_moved. cbn. split; [|auto]. rewrite !dropN_skipn. destruct (N.le_gt_cases n (lenN (s_rem (r_stream (p_rd s))))).
    + rewrite N.min_l by lia. reflexivity.
    + rewrite N.min_r by lia. rewrite !skipn_all2 by (unfold lenN in *; lia). reflexivity.
  - intros _. split; [exact N'|exact Hk].
Qed.

(** A decoder's program on the reader does what it does on the remaining bytes. *)
Lemma run_z_calm : forall A (p : zprog A) s, calm s -> room s ->
  exists m s', run_z p s = (Ok (fst (zrun p (s_rem (r_stream (p_rd s))))), s') /\ moved m s s' /\
    (m <= lenN (s_rem (r_stream (p_rd s))))%N /\ room s' /\
    snd (zrun p (s_rem (r_stream (p_rd s)))) = dropN m (s_rem (r_stream (p_rd s))).
Proof.
  intros A p. induction p as [a|n k IH|n k IH]; intros s Hc Hr; cbn [run_z zrun].
  - exists 0%N, s. split; [reflexivity|]. split; [apply moved_0|]. split; [lia|]. split; [exact Hr|]. rewrite dropN_0. reflexivity.
  - set (c := s_rem (r_stream (p_rd s))) in *. destruct (Nat.leb_spec n (length c)) as [L|L].
    + destruct (try_read_ok n s (firstn n c) (skipn n c) Hc Hr) as (s1 & E1 & M1 & R1).
      { rewrite firstn_skipn. reflexivity. } { apply firstn_length_le. exact L. }
      rewrite (bind_ok _ _ _ _ _ _ _ E1). assert (Hr1 : room s1) by (eapply room_moved; eauto; fold c; unfold lenN; lia).
      destruct (IH (inr (firstn n c)) s1 (proj2 (proj2 M1) Hc) Hr1) as (m & s2 & E2 & M2 & L2 & R2 & D2). rewrite R1 in *.
      exists (N.of_nat n + m)%N, s2. split; [exact E2|]. split; [eapply moved_trans; eauto|].
      split; [unfold lenN in *; rewrite skipn_length in L2; lia|]. split; [exact R2|].
      rewrite D2. rewrite <- dropN_dropN. rewrite (dropN_skipn _ c), Nnat.Nat2N.id. reflexivity.
    + destruct (try_read_eof n s Hc Hr L) as (s1 & E1 & M1 & R1). rewrite (bind_ok _ _ _ _ _ _ _ E1).
      assert (Hr1 : room s1) by (eapply room_moved; eauto; lia).
      destruct (IH (inl IoEof) s1 (proj2 (proj2 M1) Hc) Hr1) as (m & s2 & E2 & M2 & L2 & R2 & D2). rewrite R1 in *. cbn in L2.
      exists (lenN c + m)%N, s2. split; [exact E2|]. split; [eapply moved_trans; eauto|]. split; [lia|]. split; [exact R2|].
      rewrite D2. rewrite <- dropN_dropN. rewrite (dropN_skipn _ c), skipn_all2 by (unfold lenN; lia). reflexivity.
  - set (c := s_rem (r_stream (p_rd s))) in *. destruct (to_end_mv n s Hc Hr) as (s1 & E1 & M1). fold c in E1, M1.
    rewrite (bind_ok _ _ _ _ _ _ _ E1). assert (Hr1 : room s1) by (eapply room_moved; eauto; fold c; lia).
    assert (R1 : s_rem (r_stream (p_rd s1)) = dropN n c).
    { rewrite (moved_rem _ _ _ M1). fold c. rewrite !dropN_skipn. destruct (N.le_gt_cases n (lenN c)).
      - rewrite N.min_l by lia. reflexivity.
      - rewrite N.min_r by lia. rewrite !skipn_all2 by (unfold lenN in *; lia). reflexivity. }
    destruct (IH (None, takeN n c) s1 (proj2 (proj2 M1) Hc) Hr1) as (m & s2 & E2 & M2 & L2 & R2 & D2). rewrite R1 in *.
    exists (N.min n (lenN c) + m)%N, s2. split; [exact E2|]. split; [eapply moved_trans; eauto|].
    rewrite lenN_dropN in L2. split; [lia|]. split; [exact R2|].
    rewrite D2, <- dropN_dropN. f_equal. rewrite <- R1. rewrite (moved_rem _ _ _ M1). reflexivity.
Qed.

Lemma zreads_app : forall ns ms st c, zreads (ns ++ ms) st c =
  let '((rs, st1), c1) := zreads ns st c in let '((rs2, st2), c2) := zreads ms st1 c1 in (rs ++ rs2, st2, c2).
Proof.
  induction ns as [|n ns IH]; intros ms st c; cbn [zreads app].
  - destruct (zreads ms st c) as [[rs st2] c2]. reflexivity.
  - destruct (zrun (z_read st n) c) as [[r st1] c1]. rewrite IH. destruct (zreads ns st1 c1) as [[rs st2] c2].
    destruct (zreads ms st2 c2) as [[rs2 st3] c3]. reflexivity.
Qed.
Lemma cut_at_app : forall ns n d, cut_at (ns ++ [n]) d = cut_at ns d ++ [firstn n (skipn (list_sum ns) d)].
Proof.
  induction ns as [|m ns IH]; intros n d; [reflexivity|]. cbn [cut_at app]. rewrite IH. cbn [app].
  change (list_sum (m :: ns)) with (m + list_sum ns)%nat. rewrite skipn_plus. reflexivity.
Qed.

Lemma dec_read_ok : forall d n raw L s, zlib_roundtrip env -> calm s -> room s -> supplies d raw L s -> (n <= length raw)%nat ->
  exists d' m s', dec_read d n s = (Ok (d', inr (firstn n raw)), s') /\ (m <= L)%N /\ moved m s s' /\ room s' /\
    supplies d' (skipn n raw) (L - m) s'.
Proof.
  intros d n raw L s HZ Hc Hr Hs Hn. destruct d as [|st]; cbn [supplies dec_read] in *.
  - destruct Hs as [-> (rest & Hs)].
    destruct (try_read_ok n s (firstn n raw) (skipn n raw ++ rest) Hc Hr) as (s' & E & M & Er).
    + rewrite app_assoc, firstn_skipn. exact Hs.
    + apply firstn_length_le. exact Hn.
    + exists DDirect, (N.of_nat n), s'. rewrite (bind_ok _ _ _ _ _ _ _ E). split; [reflexivity|].
      split; [unfold lenN; lia|]. split; [exact M|]. split; [|split; [|exists rest; exact Er]].
      * eapply room_moved; eauto. rewrite Hs, lenN_app. unfold lenN. lia.
      * unfold lenN. rewrite skipn_length. lia.
  - destruct Hs as (full & rest & st0 & c0 & ns & rs & used & extra & E0 & E1 & E2 & HL & HX & Hl).
    destruct (HZ full rest) as (st1 & used0 & F0 & _ & F1). rewrite E0 in F0. injection F0 as <- Ec.
    assert (Sum : (list_sum (ns ++ [n]) <= length (concat full))%nat).
    { rewrite list_sum_app. cbn. apply (f_equal (@length _)) in HX. rewrite skipn_length, app_length in HX. lia. }
    destruct (F1 _ Sum) as (st' & used' & F2 & Lu). rewrite <- Ec, zreads_app, E1 in F2. cbn [zreads] in F2.
    destruct (run_z_calm _ (z_read st n) s Hc Hr) as (m & s' & Ez & M & Lm & Hr' & Er).
    destruct (zrun (z_read st n) (s_rem (r_stream (p_rd s)))) as [[r st2] c2] eqn:Ezr. cbn [fst snd] in *.
    injection F2 as F2 <- F3. rewrite cut_at_app, map_app in F2. apply app_inj_tail in F2. destruct F2 as [_ F2]. cbn in F2.
    rewrite HX, firstn_app in F2. replace (n - length raw)%nat with 0%nat in F2 by lia. rewrite firstn_O, app_nil_r in F2. subst r.
    exists (DZlib st2), m, s'. rewrite (bind_ok _ _ _ _ _ _ _ Ez). rewrite firstn_length_le by exact Hn. rewrite Nat.eqb_refl.
    split; [reflexivity|].
    assert (Em : (used + m = used0 + used')%N).
    { rewrite E2, dropN_dropN in Er. rewrite E2, lenN_dropN, lenN_app in Lm. rewrite F3 in Er. apply (f_equal (@lenN _)) in Er.
      rewrite !lenN_dropN, lenN_app in Er. lia. }
    split; [lia|]. split; [exact M|]. split; [exact Hr'|].
    cbn [supplies]. exists full, rest, st0, c0, (ns ++ [n]), (rs ++ [inr (firstn n raw)]), (used + m)%N, extra.
    rewrite (moved_rem _ _ _ M), <- Er.
    split; [exact E0|]. split; [rewrite zreads_app, E1; cbn [zreads]; rewrite Ezr; reflexivity|].
    split; [rewrite Er, E2, dropN_dropN; reflexivity|]. split; [lia|].
    split; [rewrite list_sum_app; cbn; rewrite Nat.add_0_r, skipn_plus, HX, skipn_app; replace (n - length raw)%nat with 0%nat by lia; reflexivity|exact Sum].
Qed.

(** The elements of raw bytes. *)
Fixpoint chunks {A} (el : elem A) (n : nat) (raw : list byte) : list (list byte) :=
  match n with O => [] | S n' => firstn (el_size el) raw :: chunks el n' (skipn (el_size el) raw) end.

(** What a loader for a sequence does on given elements, and the elements it leaves. *)
Fixpoint pure_seq {A O} (p : seqprog A O) (vals : list A) : (perr + O) * list A :=
  match p with
  | SRet r => (r, vals)
  | SNext k => match vals with [] => pure_seq (k None) [] | v :: t => pure_seq (k (Some (inr v))) t end
  | SCollect k => pure_seq (k (inr vals)) []
  end.

(** An iterator about to yield the elements whose bytes are [l]. *)
Definition iter_at {A} (el : elem A) (it : iterst) (l : list (list byte)) (L : N) (s : pstate) : Prop :=
  it_err it = false /\ it_rest it = lenN l /\ Forall (fun b => length b = el_size el) l /\
  supplies (it_dec it) (concat l) L s /\ calm s /\ room s.

Lemma dec_read_direct : forall n s d r s', dec_read DDirect n s = (Ok (d, r), s') -> d = DDirect.
Proof. intros n s d r s' H. cbn [dec_read] in H. unfold bind in H. destruct (try_read n s) as [[x|e|] s1]; try discriminate. injection H as <- _ _. reflexivity. Qed.

Lemma it_next_ok : forall A (el : elem A) it b l L s, zlib_roundtrip env -> iter_at el it (b :: l) L s ->
  exists it' m s', it_next el it s = (Ok (it', Some (inr (el_dec el b))), s') /\ (m <= L)%N /\ moved m s s' /\
    iter_at el it' l (L - m) s' /\ it_bad it' = it_bad it || el_bad el b /\ (it_dec it = DDirect -> it_dec it' = DDirect).
Proof.
  intros A el it b l L s HZ (H1 & H2 & H3 & H4 & H5 & H6). inversion_clear H3 as [|? ? Hb Hl].
  unfold it_next. assert (E0 : (it_rest it =? 0)%N = false) by (rewrite H2, lenN_cons; apply N.eqb_neq; lia). rewrite E0.
  destruct (dec_read_ok _ (el_size el) _ _ _ HZ H5 H6 H4) as (d' & m & s' & E & Hm & M & Hr & Hs).
  { cbn. rewrite app_length. lia. }
  rewrite (bind_ok _ _ _ _ _ _ _ E). cbn [concat] in *.
  assert (F1 : firstn (el_size el) (b ++ concat l) = b).
  { rewrite <- Hb, firstn_app, firstn_all, Nat.sub_diag. cbn. apply app_nil_r. }
  assert (F2 : skipn (el_size el) (b ++ concat l) = concat l).
  { rewrite <- Hb, skipn_app, skipn_all, Nat.sub_diag. reflexivity. }
  rewrite F1 in *. rewrite F2 in Hs.
  eexists _, m, s'. split; [reflexivity|]. split; [exact Hm|]. split; [exact M|]. split; [|split; [reflexivity|intros ED; rewrite ED in E; apply (dec_read_direct _ _ _ _ _ E)]].
  unfold iter_at. cbn [it_err it_rest it_dec]. split; [exact H1|]. split; [rewrite H2, lenN_cons; lia|].
  split; [exact Hl|]. split; [exact Hs|]. split; [|exact Hr]. apply M. exact H5.
Qed.
Lemma it_next_none : forall A (el : elem A) it L s, iter_at el it [] L s -> it_next el it s = (Ok (it, None), s).
Proof. intros A el it L s (_ & H2 & _). unfold it_next. rewrite H2. reflexivity. Qed.

Lemma it_collect_ok : forall A (el : elem A) it l L s, zlib_roundtrip env -> iter_at el it l L s ->
  exists it' m s', it_collect el it s = (Ok (it', inr (map (el_dec el) l)), s') /\ (m <= L)%N /\ moved m s s' /\
    iter_at el it' [] (L - m) s' /\ it_bad it' = it_bad it || existsb (el_bad el) l /\ (it_dec it = DDirect -> it_dec it' = DDirect).
Proof.
  intros A el it l L s HZ H. unfold it_collect.
  assert (K : forall l it acc L s n, iter_at el it l L s -> (length l < n)%nat ->
    exists it' m s', nloop n (collect_step el) (it, acc) s = (Ok (inr (it', inr (rev acc ++ map (el_dec el) l))), s') /\
      (m <= L)%N /\ moved m s s' /\ iter_at el it' [] (L - m) s' /\ it_bad it' = it_bad it || existsb (el_bad el) l /\ (it_dec it = DDirect -> it_dec it' = DDirect)).
  { clear - HZ. induction l as [|b l IH]; intros it acc L s n H Hn; destruct n as [|n]; try (cbn in Hn; lia); cbn [nloop].
    - exists it, 0%N, s. unfold collect_step. unfold bind at 1 2. rewrite (it_next_none _ _ _ _ _ H). cbn.
      rewrite app_nil_r, orb_false_r, N.sub_0_r. repeat split; try apply moved_0; try apply H; try lia; auto.
    - destruct (it_next_ok _ _ _ _ _ _ _ HZ H) as (it1 & m1 & s1 & E1 & Hm1 & M1 & I1 & B1 & D1).
      destruct (IH it1 (el_dec el b :: acc) _ s1 n I1) as (it2 & m2 & s2 & E2 & Hm2 & M2 & I2 & B2 & D2); [cbn in Hn; lia|].
      exists it2, (m1 + m2)%N, s2. unfold collect_step at 1. unfold bind at 1 2. rewrite E1. cbn [ret].
      rewrite E2. cbn [rev map]. rewrite <- app_assoc. split; [reflexivity|]. split; [lia|].
      split; [apply (moved_trans _ _ _ _ _ M1 M2)|]. split; [replace (L - (m1 + m2))%N with (L - m1 - m2)%N by lia; exact I2|].
      split; [rewrite B2, B1; cbn; rewrite orb_assoc; reflexivity|auto]. }
  destruct (K l it [] L s (Pos.to_nat (N.succ_pos (it_rest it))) H) as (it' & m & s' & E & Hm & M & I & B & D).
  { destruct H as (_ & H2 & _). rewrite H2. unfold lenN. rewrite N.succ_pos_spec || idtac. lia. }
  exists it', m, s'. rewrite <- mloop_nloop in E. rewrite (bind_ok _ _ _ _ _ _ _ E). auto 10.
Qed.

(** On well-formed data the loader sees the elements, in order, and moves within [L]. *)
Lemma run_seq_ok : forall A O (el : elem A) (p : seqprog A O) it l L s, zlib_roundtrip env -> iter_at el it l L s ->
  exists it' m s' used, run_seq el p it s = (Ok (it', fst (pure_seq p (map (el_dec el) l))), s') /\ (m <= L)%N /\ moved m s s' /\
    it_err it' = false /\ l = used ++ skipn (length used) l /\
    snd (pure_seq p (map (el_dec el) l)) = map (el_dec el) (skipn (length used) l) /\
    it_bad it' = it_bad it || existsb (el_bad el) used /\ room s' /\ calm s' /\
    (it_dec it = DDirect -> m = lenN (concat used)).
Proof.
  intros A O el p. induction p as [r|k IH|k IH]; intros it l L s HZ H; cbn [run_seq pure_seq].
  - exists it, 0%N, s, []. cbn. rewrite orb_false_r. repeat split; try apply moved_0; try apply H; lia.
  - destruct l as [|b l].
    + rewrite (bind_ok _ _ _ _ _ _ _ (it_next_none _ _ _ _ _ H)). cbn [map]. 
      destruct (IH None it [] L s HZ H) as (it' & m & s' & used & K). exists it', m, s', used. exact K.
    + destruct (it_next_ok _ _ _ _ _ _ _ HZ H) as (it1 & m1 & s1 & E1 & Hm1 & M1 & I1 & B1 & D1).
      rewrite (bind_ok _ _ _ _ _ _ _ E1). cbn [map].
      destruct (IH (Some (inr (el_dec el b))) it1 l _ s1 HZ I1) as (it2 & m2 & s2 & used & E2 & Hm2 & M2 & Er & U1 & U2 & B2 & R2 & C2 & D2).
      exists it2, (m1 + m2)%N, s2, (b :: used). split; [exact E2|]. split; [lia|].
      split; [apply (moved_trans _ _ _ _ _ M1 M2)|]. split; [exact Er|]. cbn [length skipn app].
      split; [f_equal; exact U1|]. split; [exact U2|]. split; [rewrite B2, B1; cbn; rewrite orb_assoc; reflexivity|]. split; [exact R2|]. split; [exact C2|].
      intros ED. rewrite (D2 (D1 ED)). destruct H as (_ & _ & _ & HS & _). destruct I1 as (_ & _ & _ & IS & _). rewrite ED in HS. rewrite (D1 ED) in IS.
      cbn [supplies concat] in *. destruct HS as [HS _], IS as [IS _]. rewrite lenN_app in *. lia.
  - destruct (it_collect_ok _ _ _ _ _ _ HZ H) as (it1 & m1 & s1 & E1 & Hm1 & M1 & I1 & B1 & D1).
    rewrite (bind_ok _ _ _ _ _ _ _ E1).
    destruct (IH (inr (map (el_dec el) l)) it1 [] _ s1 HZ I1) as (it2 & m2 & s2 & used & E2 & Hm2 & M2 & Er & U1 & U2 & B2 & R2 & C2 & D2).
    assert (used = []) as -> by (destruct used; [reflexivity|discriminate]).
    exists it2, (m1 + m2)%N, s2, l. cbn [map] in E2, U2. rewrite skipn_all. cbn [map].
    split; [exact E2|]. split; [lia|]. split; [apply (moved_trans _ _ _ _ _ M1 M2)|]. split; [exact Er|].
    split; [rewrite app_nil_r; reflexivity|]. split; [exact U2|]. split; [rewrite B2, B1; cbn; rewrite orb_false_r; reflexivity|]. split; [exact R2|]. split; [exact C2|].
    intros ED. rewrite (D2 (D1 ED)). destruct H as (_ & _ & _ & HS & _). destruct I1 as (_ & _ & _ & IS & _). rewrite ED in HS. rewrite (D1 ED) in IS.
    cbn [supplies concat] in *. destruct HS as [HS _], IS as [IS _]. change (lenN (@nil byte)) with 0%N in *. lia.
Qed.

End WithEnv.
