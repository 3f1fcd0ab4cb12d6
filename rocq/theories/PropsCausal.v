(** C69: what the parser reports does not depend on bytes it has not taken from the reader. *)
Require Import Coq.Lists.List Coq.NArith.NArith Coq.ZArith.ZArith Coq.Bool.Bool Coq.micromega.Lia.
Require Import ZifyBool ZifyNat ZifyN.
Require Import Coq.Init.Byte.
Require Import Verif.Base Verif.BaseFacts Verif.Utf8 Verif.Types Verif.Io Verif.IoFacts Verif.Parser Verif.MonadFacts Verif.ParserSteps Verif.ParserHist Verif.ParserPos Verif.ParserRel Verif.EscRel Verif.Moves Verif.Loaders Verif.Samples.
Import ListNotations.
Local Open Scope nat_scope.
Ltac Zify.zify_post_hook ::= Z.div_mod_to_equations.

(** The reader for binary or string data is used through [read], [read_exact] and
    [read_to_end], not through [fill_buf] (which shows bytes without taking them). *)
Inductive no_peek : forall O, rdprog O -> Prop :=
| np_ret : forall O r, no_peek O (RRet r)
| np_read : forall O n k, (forall x, no_peek O (k x)) -> no_peek O (RRead n k)
| np_exact : forall O n k, (forall x, no_peek O (k x)) -> no_peek O (RExact n k)
| np_end : forall O k, (forall x, no_peek O (k x)) -> no_peek O (RToEnd k).

Section Two.
Context (b c : list byte) (Hb : b <> []) (Hc : c <> []).
Lemma b_len : 1 <= length b. Proof. destruct b; [tauto|cbn; lia]. Qed.
Lemma c_len : 1 <= length c. Proof. destruct c; [tauto|cbn; lia]. Qed.

Ltac cut_ m x := rewrite (firstn_app m x), (skipn_app m x); replace (m - length x) with 0 by lia; cbn [firstn skipn]; rewrite app_nil_r.

Lemma rx_shrinks : forall sc rem n e got rem' sc', rx sc rem n = (e, got, rem', sc') -> length rem' <= length rem.
Proof.
  intros sc. induction sc as [|[k| |f] sc IH]; intros rem n e got rem' sc' H; destruct n as [|n]; cbn [rx] in H; try (injection H as <- <- <- <-; lia).
  - destruct (Nat.leb_spec (S n) (length rem)); injection H as <- <- <- <-; [change (length (skipn (S n) rem) <= length rem); rewrite skipn_length|cbn]; lia.
  - destruct (Nat.min (S n) (Nat.min (Pos.to_nat k) (length rem))) as [|m]; [injection H as <- <- <- <-; lia|].
    destruct (rx sc _ _) as [[[e1 g1] r1] s1] eqn:E. injection H as <- <- <- <-. apply IH in E. rewrite skipn_length in E. lia.
  - apply (IH _ _ _ _ _ _ H).
Qed.
Lemma rte_shrinks : forall sc rem n e got rem' sc', rte sc rem n = (e, got, rem', sc') -> length rem' <= length rem.
Proof.
  intros sc. induction sc as [|[k| |f] sc IH]; intros rem n e got rem' sc' H; cbn [rte] in H; (destruct (n =? 0)%N; [injection H as <- <- <- <-; lia|]).
  - injection H as <- <- <- <-. rewrite skipn_length. lia.
  - destruct (clip _ _) as [|m]; [injection H as <- <- <- <-; lia|].
    destruct (rte sc _ _) as [[[e1 g1] r1] s1] eqn:E. injection H as <- <- <- <-. apply IH in E. rewrite skipn_length in E. lia.
  - apply (IH _ _ _ _ _ _ H).
  - injection H as <- <- <- <-; lia.
Qed.

Lemma r1_shrinks : forall sc rem n v rem' sc', r1 sc rem n = (v, rem', sc') -> length rem' <= length rem.
Proof.
  intros sc rem n v rem' sc' H. unfold r1 in H. destruct n as [|n]; [injection H as <- <- <-; lia|].
  assert (K : forall m, length (skipn m rem) <= length rem) by (intros; rewrite skipn_length; lia).
  destruct sc as [|[k| |f] sc].
  - replace rem' with (skipn (S n) rem) by congruence. apply K.
  - replace rem' with (skipn (Nat.min (S n) (Pos.to_nat k)) rem) by congruence. apply K.
  - injection H as <- <- <-; lia.
  - injection H as <- <- <-; lia.
Qed.

Lemma rx_ahead : forall sc x n e got rem' sc', rx sc (x ++ b) n = (e, got, rem', sc') ->
  length rem' < length b \/ exists y, rem' = y ++ b /\ rx sc (x ++ c) n = (e, got, y ++ c, sc').
Proof.
  pose proof b_len as Lb. pose proof c_len as Lc.
  intros sc. induction sc as [|[k| |f] sc IH]; intros x n e got rem' sc' H; destruct n as [|n]; cbn [rx] in H |- *;
    try (injection H as <- <- <- <-; right; exists x; auto; fail).
  - destruct (Nat.leb_spec (S n) (length (x ++ b))) as [L|L]; [|injection H as <- <- <- <-; left; cbn; lia].
    assert (X : e = None /\ got = firstn (S n) (x ++ b) /\ rem' = skipn (S n) (x ++ b) /\ sc' = []) by (repeat split; congruence). destruct X as (-> & -> & -> & ->). clear H.
    destruct (Nat.le_gt_cases (S n) (length x)) as [L'|L'].
    + right. exists (skipn (S n) x). rewrite app_length. destruct (Nat.leb_spec (S n) (length x + length c)); [|lia].
      rewrite !(firstn_app (S n) x), !(skipn_app (S n) x). replace (S n - length x) with 0 by lia. cbn [firstn skipn]. rewrite !app_nil_r. auto.
    + left. rewrite skipn_length. rewrite app_length in *. lia.
  - rewrite !app_length in *. destruct (Nat.le_gt_cases (Nat.min (S n) (Pos.to_nat k)) (length x)) as [L|L].
    + replace (Nat.min (S n) (Nat.min (Pos.to_nat k) (length x + length b))) with (Nat.min (S n) (Pos.to_nat k)) in H by lia.
      replace (Nat.min (S n) (Nat.min (Pos.to_nat k) (length x + length c))) with (Nat.min (S n) (Pos.to_nat k)) by lia.
      destruct (Nat.min (S n) (Pos.to_nat k)) as [|m] eqn:Em; [lia|].
      rewrite (firstn_app (S m) x b), (skipn_app (S m) x b) in H. rewrite (firstn_app (S m) x c), (skipn_app (S m) x c).
      replace (S m - length x) with 0 in * by lia. cbn [firstn skipn] in *. rewrite app_nil_r in *.
      destruct (rx sc _ (S n - S m)) as [[[e1 g1] r1] s1] eqn:E. injection H as <- <- <- <-. apply IH in E.
      destruct E as [E|(y & -> & E)]; [left; exact E|right; exists y; split; [reflexivity|]]. rewrite E. reflexivity.
    + left. destruct (Nat.min (S n) (Nat.min (Pos.to_nat k) (length x + length b))) as [|m] eqn:Em; [lia|].
      destruct (rx sc (skipn (S m) (x ++ b)) _) as [[[e1 g1] r1] s1] eqn:E. injection H as <- <- <- <-. apply rx_shrinks in E. rewrite skipn_length, app_length in E. lia.
  - destruct (IH _ _ _ _ _ _ H) as [E|(y & -> & E)]; [left; exact E|right; exists y; auto].
Qed.

Lemma rte_ahead : forall sc x n e got rem' sc', rte sc (x ++ b) n = (e, got, rem', sc') ->
  length rem' < length b \/ exists y, rem' = y ++ b /\ rte sc (x ++ c) n = (e, got, y ++ c, sc').
Proof.
  pose proof b_len as Lb. pose proof c_len as Lc.
  intros sc. induction sc as [|[k| |f] sc IH]; intros x n e got rem' sc' H; cbn [rte] in H |- *;
    (destruct (N.eqb_spec n 0) as [->|Hn]; [injection H as <- <- <- <-; right; exists x; auto|]).
  - injection H as <- <- <- <-. unfold clip, lenN. rewrite !app_length. destruct (N.le_gt_cases n (lenN x)) as [L|L]; unfold lenN in L.
    + right. exists (skipn (N.to_nat n) x). replace (N.to_nat (N.min n (N.of_nat (length x + length b)))) with (N.to_nat n) by lia.
      replace (N.to_nat (N.min n (N.of_nat (length x + length c)))) with (N.to_nat n) by lia.
      rewrite !(firstn_app (N.to_nat n) x), !(skipn_app (N.to_nat n) x). replace (N.to_nat n - length x) with 0 by lia. cbn [firstn skipn]. rewrite !app_nil_r. auto.
    + left. rewrite skipn_length, app_length. lia.
  - unfold clip, lenN in *. rewrite !app_length in *. destruct (N.le_gt_cases (N.min n (Npos k)) (lenN x)) as [L|L]; unfold lenN in L.
    + replace (N.to_nat (N.min (N.min n (N.pos k)) (N.of_nat (length x + length b)))) with (N.to_nat (N.min n (N.pos k))) in H by lia.
      replace (N.to_nat (N.min (N.min n (N.pos k)) (N.of_nat (length x + length c)))) with (N.to_nat (N.min n (N.pos k))) by lia.
      destruct (N.to_nat (N.min n (N.pos k))) as [|m] eqn:Em; [lia|].
      rewrite (firstn_app (S m) x b), (skipn_app (S m) x b) in H. rewrite (firstn_app (S m) x c), (skipn_app (S m) x c).
      replace (S m - length x) with 0 in * by lia. cbn [firstn skipn] in *. rewrite app_nil_r in *.
      destruct (rte sc _ (n - N.of_nat (S m))) as [[[e1 g1] r1] s1] eqn:E. injection H as <- <- <- <-. apply IH in E.
      destruct E as [E|(y & -> & E)]; [left; exact E|right; exists y; split; [reflexivity|]]. rewrite E. reflexivity.
    + left. destruct (N.to_nat (N.min (N.min n (N.pos k)) (N.of_nat (length x + length b)))) as [|m] eqn:Em; [lia|].
      destruct (rte sc (skipn (S m) (x ++ b)) _) as [[[e1 g1] r1] s1] eqn:E. injection H as <- <- <- <-. apply rte_shrinks in E. rewrite skipn_length, app_length in E. lia.
  - destruct (IH _ _ _ _ _ _ H) as [E|(y & -> & E)]; [left; exact E|right; exists y; auto].
  - injection H as <- <- <- <-; right; exists x; auto.
Qed.

Lemma r1_ahead : forall sc x n r rem' sc', r1 sc (x ++ b) n = (r, rem', sc') ->
  length rem' < length b \/ exists y, rem' = y ++ b /\ r1 sc (x ++ c) n = (r, y ++ c, sc').
Proof.
  pose proof b_len as Lb. pose proof c_len as Lc.
  intros sc x n r rem' sc' H. unfold r1 in *. destruct n as [|n]; [injection H as <- <- <-; right; exists x; auto|].
  assert (K : forall m sc2, (inr (firstn m (x ++ b)), skipn m (x ++ b), sc2) = (r, rem', sc') ->
    length rem' < length b \/ exists y, rem' = y ++ b /\ (inr (firstn m (x ++ c)), skipn m (x ++ c), sc2) = (r, y ++ c, sc')).
  { intros m sc2 E. injection E as <- <- <-. destruct (Nat.le_gt_cases m (length x)) as [L|L].
    - right. exists (skipn m x). rewrite !(firstn_app m x), !(skipn_app m x). replace (m - length x) with 0 by lia. cbn [firstn skipn]. rewrite !app_nil_r. auto.
    - left. rewrite skipn_length, app_length. lia. }
  destruct sc as [|[k| |f] sc]; try apply (K _ _ H); injection H as <- <- <-; right; exists x; auto.
Qed.

(** The reader with other bytes to come. *)
Definition refill (rem : list byte) (r : reader) : reader :=
  mkReader (mkStream rem (s_off (r_stream r)) (s_sched (r_stream r)) (s_seeks (r_stream r))) (r_pos r) (r_seekable r).
Definition left_of (r : reader) : list byte := s_rem (r_stream r).
(** A call on the reader: what is left never grows; if it takes nothing of [b], it does the
    same when [c] comes instead. *)
Definition ahead {A} (f : reader -> option A * reader) : Prop := forall r a r', f r = (Some a, r') ->
  length (left_of r') <= length (left_of r) /\
  forall x, left_of r = x ++ b -> length (left_of r') < length b \/
    exists y, left_of r' = y ++ b /\ f (refill (x ++ c) r) = (Some a, refill (y ++ c) r').
Lemma exact_ahead : forall n, ahead (rd_exact n).
Proof.
  intros n r a r' H. unfold rd_exact, left_of in *. destruct (rx _ _ n) as [[[e got] rem'] sc'] eqn:E.
  destruct (advance (r_pos r) (lenN got)) eqn:Ea; [|discriminate]. injection H as <- <-. cbn [with_stream r_stream s_rem]. split; [apply (rx_shrinks _ _ _ _ _ _ _ E)|].
  intros x Hx. rewrite Hx in E. destruct (rx_ahead _ _ _ _ _ _ _ E) as [P|(y & -> & P)]; [left; exact P|right; exists y]. split; [reflexivity|].
  unfold refill at 1 2 3 4. cbn [r_stream s_sched s_rem r_pos]. rewrite P, Ea. reflexivity.
Qed.
Lemma to_end_ahead : forall n, ahead (rd_to_end n).
Proof.
  intros n r a r' H. unfold rd_to_end, left_of in *. destruct (rte _ _ n) as [[[e got] rem'] sc'] eqn:E.
  destruct (advance (r_pos r) (lenN got)) eqn:Ea; [|discriminate]. injection H as <- <-. cbn [with_stream r_stream s_rem]. split; [apply (rte_shrinks _ _ _ _ _ _ _ E)|].
  intros x Hx. rewrite Hx in E. destruct (rte_ahead _ _ _ _ _ _ _ E) as [P|(y & -> & P)]; [left; exact P|right; exists y]. split; [reflexivity|].
  unfold refill at 1 2 3 4. cbn [r_stream s_sched s_rem r_pos]. rewrite P, Ea. reflexivity.
Qed.
Lemma once_ahead : forall n, ahead (rd_once n).
Proof.
  intros n r a r' H. unfold rd_once, left_of in *. destruct (r1 _ _ n) as [[v rem'] sc'] eqn:E. cbn zeta in *.
  destruct (advance (r_pos r) (match v with inl _ => 0%N | inr got => lenN got end)) eqn:Ea; [|discriminate]. injection H as <- <-. cbn [with_stream r_stream s_rem].
  split; [apply (r1_shrinks _ _ _ _ _ _ E)|].
  intros x Hx. rewrite Hx in E. destruct (r1_ahead _ _ _ _ _ _ E) as [P|(y & -> & P)]; [left; exact P|right; exists y]. split; [reflexivity|].
  unfold refill at 1 2 3 4. cbn [r_stream s_sched s_rem r_pos]. rewrite P, Ea. reflexivity.
Qed.
Lemma seek_part_ahead : forall n, ahead (seek_part n).
Proof.
  intros n r a r' H.
  assert (K : forall sk, s_seeks (r_stream r) = sk -> (match seek_move (r_pos r) n with
      | Some p => (Some None, with_stream r (mkStream (dropN n (left_of r)) (s_off (r_stream r) + n) (s_sched (r_stream r)) (tl sk)) p)
      | None => (None, with_stream r (mkStream (dropN n (left_of r)) (s_off (r_stream r) + n) (s_sched (r_stream r)) (tl sk)) (r_pos r)) end) = (Some a, r') ->
    match sk with Some _ :: _ => False | _ => True end ->
    length (left_of r') <= length (left_of r) /\
    forall x, left_of r = x ++ b -> length (left_of r') < length b \/
      exists y, left_of r' = y ++ b /\ seek_part n (refill (x ++ c) r) = (Some a, refill (y ++ c) r')).
  { intros sk Es E Hs. destruct (seek_move (r_pos r) n) as [p|] eqn:Em; [|discriminate]. injection E as Ea Er.
    assert (LR : left_of r' = dropN n (left_of r)) by (rewrite <- Er; reflexivity). rewrite LR, dropN_skipn, skipn_length. split; [lia|]. intros x Hx. rewrite Hx, app_length. destruct (Nat.le_gt_cases (N.to_nat n) (length x)) as [L|L]; [right|left; pose proof b_len; lia].
    exists (skipn (N.to_nat n) x). rewrite (skipn_app (N.to_nat n) x b). replace (N.to_nat n - length x) with 0 by lia. split; [reflexivity|].
    rewrite <- Ea, <- Er. unfold seek_part, refill. cbn [r_stream s_seeks s_rem r_pos s_off s_sched r_seekable with_stream]. rewrite Es, Em, dropN_skipn, (skipn_app (N.to_nat n) x c). replace (N.to_nat n - length x) with 0 by lia.
    destruct sk as [|[f|] sk]; [reflexivity|contradiction|reflexivity]. }
  unfold seek_part in H. fold (left_of r) in H. destruct (s_seeks (r_stream r)) as [|[f|] sk] eqn:E.
  - apply (K [] eq_refl H I).
  - injection H as <- <-. split; [apply Nat.le_refl|]. intros x Hx. right. exists x. split; [exact Hx|]. unfold seek_part, refill. cbn. rewrite E. reflexivity.
  - apply (K _ eq_refl H I).
Qed.
Lemma seek_all_ahead : forall parts, ahead (seek_all parts).
Proof.
  induction parts as [|p ps IH]; intros r a r' H; cbn [seek_all] in *.
  - injection H as <- <-. split; [lia|]. intros x Hx. right. exists x. auto.
  - destruct (seek_part p r) as [[[e|]|] r1] eqn:E; try discriminate; destruct (seek_part_ahead _ _ _ _ E) as [P1 P2].
    + injection H as <- <-. split; [exact P1|]. intros x Hx. destruct (P2 x Hx) as [P|(y & Ey & P)]; [left; exact P|right; exists y]. rewrite P. auto.
    + destruct (IH _ _ _ H) as [Q1 Q2]. split; [lia|]. intros x Hx. destruct (P2 x Hx) as [P|(y & Ey & P)]; [left; lia|].
      destruct (Q2 y Ey) as [Q|(z & Ez & Q)]; [left; exact Q|right; exists z]. rewrite P. auto.
Qed.
Lemma skip_ahead : forall n, ahead (skip_to n).
Proof.
  intros n r a r' H. unfold skip_to in *. change (r_pos (refill _ r)) with (r_pos r). destruct (n <? r_pos r)%N eqn:En; [discriminate|]. unfold skip_distance, skip_distance_seekable in *.
  change (r_seekable (refill _ r)) with (r_seekable r). destruct (r_seekable r) eqn:Es.
  - destruct (seek_all_ahead _ _ _ _ H) as [P1 P2]. split; [exact P1|]. intros x Hx. destruct (P2 x Hx) as [P|(y & Ey & P)]; [left; exact P|right; exists y; split; [exact Ey|]].
    change (r_pos (refill (x ++ c) r)) with (r_pos r). change (r_seekable (refill (x ++ c) r)) with (r_seekable r). rewrite ?En, ?Es. exact P.
  - unfold skip_distance_plain in *. destruct (rte _ _ _) as [[[e got] rem'] sc'] eqn:E. injection H as <- <-. split; [apply (rte_shrinks _ _ _ _ _ _ _ E)|].
    intros x Hx. fold (left_of r) in E. rewrite Hx in E. unfold left_of. cbn [with_stream r_stream s_rem].
    destruct (rte_ahead _ _ _ _ _ _ _ E) as [P|(y & -> & P)]; [left; exact P|right; exists y]. split; [reflexivity|].
    change (r_pos (refill (x ++ c) r)) with (r_pos r). change (r_seekable (refill (x ++ c) r)) with (r_seekable r). rewrite ?En, ?Es.
    unfold refill at 1 2 3 4. cbn [r_stream s_sched s_rem r_pos]. rewrite P. reflexivity.
Qed.

Context {env : Env}.
Definition less (s s' : pstate) : Prop := length (left_of (p_rd s')) <= length (left_of (p_rd s)).
Lemma less_pre : preorder less.
Proof. split; unfold less; intros; lia. Qed.
Lemma less_same : forall s s', p_ver s' = p_ver s -> p_handler s' = p_handler s -> p_log s' = p_log s -> p_rd s' = p_rd s -> less s s'.
Proof. intros s s' _ _ _ H. unfold less. rewrite H. lia. Qed.
Definition bitten (s : pstate) : Prop := length (left_of (p_rd s)) < length b.
Lemma bitten_less : forall s s', less s s' -> bitten s -> bitten s'.
Proof. unfold less, bitten. intros. lia. Qed.
Definition beside (s1 s2 : pstate) : Prop := exists x, left_of (p_rd s1) = x ++ b /\ s2 = set_rd (refill (x ++ c) (p_rd s1)) s1.
Lemma beside_alike : forall s1 s2, beside s1 s2 -> alike s1 s2.
Proof. intros s1 s2 (x & _ & ->). constructor; reflexivity. Qed.
Lemma beside_upd : forall f, (forall s r, f (set_rd r s) = set_rd r (f s)) -> (forall s, p_rd (f s) = p_rd s) ->
  forall s1 s2, beside s1 s2 -> beside (f s1) (f s2).
Proof. intros f H1 H2 s1 s2 (x & E & ->). exists x. rewrite H1, H2. auto. Qed.
Lemma a_rdop : forall A (f : reader -> option A * reader), ahead f -> erel beside bitten less (rdop f).
Proof.
  intros A f H. split.
  - apply st_rdop. intros s a r E. destruct (H _ _ _ E) as [L _]. exact L.
  - intros s1 s2 r t1 (x & Ex & ->) E Hp. unfold rdop in *. cbn [p_rd set_rd].
    destruct (f (p_rd s1)) as [o r'] eqn:Ef. destruct o as [a|]; injection E as <- <-; [|congruence].
    destruct (H _ _ _ Ef) as [_ P]. destruct (P x Ex) as [P1|(y & Ey & P1)]; [left; exact P1|right].
    rewrite P1. eexists. split; [reflexivity|]. exists y. auto.
Qed.
Lemma a_warn : forall w p, erel beside bitten less (warn w p).
Proof.
  intros w p. split.
  - intros s _. unfold warn. destruct (p_handler s) as [h|]; [destruct (h _)|]; unfold less; cbn; lia.
  - intros s1 s2 r t1 (x & Ex & ->) E _. right. unfold warn in *. cbn [p_handler set_rd p_log].
    destruct (p_handler s1) as [h|]; [destruct (h _)|]; injection E as <- <-; (eexists; split; [reflexivity|]); (exists x; split; [exact Ex|reflexivity]).
Qed.
Lemma a_reader_pos : erel beside bitten less reader_pos.
Proof. apply (e_same beside bitten less less_pre); [reflexivity|]. intros s1 s2 (x & _ & ->). reflexivity. Qed.
Lemma a_run : forall O (p : rdprog O) limit, no_peek O p -> erel beside bitten less (run_rd p limit).
Proof.
  intros O p limit H. revert limit. induction H as [O r|O n k _ IH|O n k _ IH|O k _ IH]; intros limit; cbn [run_rd].
  - apply (e_ret _ _ _ less_pre).
  - apply (e_bind _ _ _ less_pre bitten_less); [apply a_rdop, once_ahead|]. intros r. apply IH.
  - destruct (N.of_nat n <=? limit)%N.
    + apply (e_bind _ _ _ less_pre bitten_less); [apply a_reader_pos|]. intros p0. apply (e_bind _ _ _ less_pre bitten_less); [apply a_rdop, exact_ahead|]. intros r.
      apply (e_bind _ _ _ less_pre bitten_less); [apply a_reader_pos|]. intros p1. apply IH.
    + apply (e_bind _ _ _ less_pre bitten_less); [apply a_reader_pos|]. intros p0. apply (e_bind _ _ _ less_pre bitten_less); [apply a_rdop, to_end_ahead|]. intros r.
      apply (e_bind _ _ _ less_pre bitten_less); [apply a_reader_pos|]. intros p1. apply IH.
  - apply (e_bind _ _ _ less_pre bitten_less); [apply a_reader_pos|]. intros p0. apply (e_bind _ _ _ less_pre bitten_less); [apply a_rdop, to_end_ahead|]. intros r.
    apply (e_bind _ _ _ less_pre bitten_less); [apply a_reader_pos|]. intros p1. apply IH.
Qed.
Lemma beside_ops : forall O (l : list (op O)) s1 s2 rs t1, Forall (op_sat no_peek) l -> beside s1 s2 -> run_ops l s1 = (rs, t1) -> no_panic rs ->
  bitten t1 \/ exists t2, run_ops l s2 = (rs, t2) /\ beside t1 t2.
Proof.
  intros O l s1 s2 rs t1. apply (e_run_ops_sat no_peek beside bitten less less_pre less_same bitten_less beside_alike).
  - intros h. apply (beside_upd (set_health h)); reflexivity.
  - intros h. apply (beside_upd (set_stack h)); reflexivity.
  - intros h. apply (beside_upd (set_last h)); reflexivity.
  - intros h. apply (beside_upd (set_top h)); reflexivity.
  - intros h. apply (beside_upd (set_attrs h)); reflexivity.
  - apply a_warn.
  - intros n. apply a_rdop, exact_ahead.
  - intros n. apply a_rdop, to_end_ahead.
  - intros n. apply a_rdop, skip_ahead.
  - apply a_run.
Qed.
Lemma less_ops : forall O (l : list (op O)) s rs t, Forall (op_sat no_peek) l -> run_ops l s = (rs, t) -> no_panic rs -> less s t.
Proof.
  intros O l s rs t. apply (e_steps no_peek beside bitten less less_pre less_same bitten_less beside_alike).
  - intros h. apply (beside_upd (set_health h)); reflexivity.
  - intros h. apply (beside_upd (set_stack h)); reflexivity.
  - intros h. apply (beside_upd (set_last h)); reflexivity.
  - intros h. apply (beside_upd (set_top h)); reflexivity.
  - intros h. apply (beside_upd (set_attrs h)); reflexivity.
  - apply a_warn.
  - intros n. apply a_rdop, exact_ahead.
  - intros n. apply a_rdop, to_end_ahead.
  - intros n. apply a_rdop, skip_ahead.
  - apply a_run.
Qed.

Lemma open_beside : forall a sched seeks seekable p, any_parser (mkStream (a ++ b) 0 sched seeks) seekable = Ok p ->
  bitten p \/ exists p2, any_parser (mkStream (a ++ c) 0 sched seeks) seekable = Ok p2 /\ beside p p2.
Proof.
  intros a sched seeks seekable p H. unfold any_parser, header_load, st_read_exact in *. cbn [s_sched s_rem s_off s_seeks] in *.
  destruct (rx sched (a ++ b) 23) as [[[e1 g1] rem1] sc1] eqn:E1. destruct e1 as [e1|]; [discriminate|].
  destruct (bytes_eqb g1 magic) eqn:Em; [|discriminate]. cbn [s_sched s_rem s_off s_seeks] in *.
  destruct (rx sc1 rem1 4) as [[[e2 g2] rem2] sc2] eqn:E2. destruct e2 as [e2|]; [discriminate|].
  destruct (ver_supported (le_dec g2)) eqn:Ev; [|discriminate]. unfold parser_create in H. rewrite Ev in H. injection H as <-.
  destruct (rx_ahead _ _ _ _ _ _ _ E1) as [P|(y & -> & P)].
  - left. apply rx_shrinks in E2. unfold bitten, left_of. cbn. lia.
  - destruct (rx_ahead _ _ _ _ _ _ _ E2) as [Q|(z & -> & Q)]; [left; exact Q|right].
    rewrite P, Em. cbn [s_sched s_rem s_off s_seeks]. rewrite Q, Ev. unfold parser_create. rewrite Ev. eexists. split; [reflexivity|]. exists z. split; reflexivity.
Qed.
End Two.

Section WithEnv.
Context {env : Env}.

(** Two files that begin with the same bytes [a].  If the calls made on the one take none of
    the bytes after [a] from the reader, the same calls on the other have the same results,
    raise the same warnings and leave the parser at the same place. *)
Theorem C69_causal : forall O a b c sched seeks seekable h p (l : list (op O)) rs t x,
  b <> [] -> c <> [] -> Forall (op_sat no_peek) l ->
  opened (a ++ b) sched seeks seekable h p -> run_ops l p = (rs, t) -> no_panic rs ->
  s_rem (r_stream (p_rd t)) = x ++ b ->
  exists p' t', opened (a ++ c) sched seeks seekable h p' /\ run_ops l p' = (rs, t') /\
    s_rem (r_stream (p_rd t')) = x ++ c /\
    p_log t' = p_log t /\ position_of t' = position_of t /\ depth t' = depth t /\ p_health t' = p_health t.
Proof.
  intros O a b c sched seeks seekable h p l rs t x Hb Hc Hl (p0 & E & ->) R Hp Ex.
  assert (NB : ~ bitten b t) by (unfold bitten, left_of; rewrite Ex, app_length; lia).
  assert (L : less (set_handler h p0) t) by (apply (less_ops b c Hb Hc _ _ _ _ _ Hl R Hp)).
  destruct (open_beside b c Hb Hc _ _ _ _ _ E) as [X|(p2 & E2 & (y & Ey & ->))].
  - exfalso. apply NB. apply (bitten_less b _ _ L). exact X.
  - exists (set_handler h (set_rd (refill (y ++ c) (p_rd p0)) p0)).
    assert (B : beside b c (set_handler h p0) (set_handler h (set_rd (refill (y ++ c) (p_rd p0)) p0))) by (exists y; split; [exact Ey|reflexivity]).
    destruct (beside_ops b c Hb Hc _ _ _ _ _ _ Hl B R Hp) as [X|(t2 & E3 & (z & Ez & ->))].
    + contradiction.
    + eexists. split; [eexists; split; [exact E2|reflexivity]|]. split; [exact E3|].
      unfold left_of in Ez. rewrite Ez in Ex. apply app_inv_tail in Ex. subst z. repeat split; reflexivity.
Qed.
End WithEnv.

(** ** Concrete cases *)
Module CausalCases.
(** The shipped loader that keeps values reads binary and string data to the end. *)
Example direct_no_peek : loader_sat no_peek direct_loader.
Proof.
  intros n. cbn. repeat split; constructor; intros x; try (destruct x as [[e|] bs]); repeat (match goal with |- context [if ?q then _ else _] => destruct q | |- context [match ?q with _ => _ end] => destruct q end); constructor.
Qed.

(** The first calls on a document take 67 bytes; the end of the file is another one. *)
Definition whole : list byte := Eval vm_compute in sample_doc 7400.
Definition first_calls : list (op aval) := [ONext; OLoad direct_loader; ONext].
Definition taken : list byte := Eval vm_compute in
  match run_from release whole [AChunk 7; AIntr] true first_calls with Some (_, s) => firstn (length whole - length (s_rem (r_stream (p_rd s)))) whole | None => [] end.
Definition rest_of : list byte := Eval vm_compute in skipn (length taken) whole.
Example causal_ex : rest_of <> [] /\ taken <> [] /\ Forall (op_sat no_peek) first_calls /\
  exists p rs t, opened (taken ++ rest_of) [AChunk 7; AIntr] [] true None p /\ run_ops (env := release) first_calls p = (rs, t) /\ no_panic rs /\
    s_rem (r_stream (p_rd t)) = [] ++ rest_of /\ length rs = 3 /\ length taken = 67 /\ depth t <> 0%N.
Proof.
  split; [discriminate|]. split; [discriminate|]. split.
  { repeat apply Forall_cons; try apply Forall_nil; try exact I. apply direct_no_peek. }
  unfold opened. do 3 eexists. split; [eexists; split; [vm_compute; reflexivity|reflexivity]|]. split; [vm_compute; reflexivity|].
  split; [vm_compute; reflexivity|]. split; [vm_compute; reflexivity|]. split; [reflexivity|]. split; [vm_compute; reflexivity|]. vm_compute. discriminate.
Qed.
End CausalCases.
