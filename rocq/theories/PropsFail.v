(** C66: a failing reader makes calls fail, and changes nothing else. *)
Require Import Coq.Lists.List Coq.NArith.NArith Coq.ZArith.ZArith Coq.Bool.Bool Coq.micromega.Lia.
Require Import Coq.Init.Byte.
Require Import ZifyBool ZifyNat ZifyN.
Require Import Verif.Base Verif.BaseFacts Verif.Utf8 Verif.Types Verif.Io Verif.IoFacts Verif.Parser Verif.MonadFacts Verif.ParserSteps Verif.ParserHist Verif.ParserPos Verif.ParserRel Verif.EscRel.
Require Import Verif.Loaders Verif.SpecErr Verif.ErrFacts Verif.SpecFail Verif.PropsErr Verif.PropsRel Verif.Tree Verif.TreeSpec Verif.TreeIo Verif.TreeIoSpec Verif.PropsTreeIo Verif.PropsAnyTree Verif.Zlib Verif.Samples.
Import ListNotations.
Ltac Zify.zify_post_hook ::= Z.div_mod_to_equations.
Open Scope monad_scope.
Local Open Scope nat_scope.

Definition mend (r : reader) : reader :=
  let s := r_stream r in
  mkReader (mkStream (s_rem s) (s_off s) (sound_reads (s_sched s)) []) (r_pos r) (r_seekable r).

Definition fails_left (s : stream) : nat := length (read_codes (s_sched s)) + length (seek_codes (s_seeks s)).
Lemma happened_left : forall a b codes, happened a b codes -> fails_left a = length codes + fails_left b.
Proof.
  intros a b codes (r & k & E1 & E2 & ->). unfold fails_left. rewrite E1, E2, read_codes_app, seek_codes_app, !app_length. lia.
Qed.
Lemma happened_trans : forall a b c l m, happened a b l -> happened b c m -> exists n, happened a c n.
Proof.
  intros a b c l m (r1 & k1 & E1 & E2 & _) (r2 & k2 & F1 & F2 & _). eexists. exists (r1 ++ r2), (k1 ++ k2).
  split; [rewrite E1, F1, app_assoc; reflexivity|]. split; [rewrite E2, F2, app_assoc; reflexivity|reflexivity].
Qed.

Lemma rx_mend : forall sc rem n e got rem' sc', rx sc rem n = (e, got, rem', sc') ->
  exists pre, sc = pre ++ sc' /\ (read_codes pre <> [] \/ rx (sound_reads sc) rem n = (e, got, rem', sound_reads sc')).
Proof.
  induction sc as [|a sc IH]; intros rem n e got rem' sc' H.
  - exists []. split; [|right].
    + destruct n; cbn in H; [injection H as _ _ _ <-; reflexivity|]. destruct (match length rem with O => _ | S _ => _ end); injection H as _ _ _ <-; reflexivity.
    + assert (sc' = []) as ->; [|exact H]. destruct n; cbn in H; [injection H as _ _ _ <-; reflexivity|]. destruct (match length rem with O => _ | S _ => _ end); injection H as _ _ _ <-; reflexivity.
  - destruct n as [|n].
    { cbn in H. injection H as <- <- <- <-. exists []. split; [reflexivity|]. right. destruct (sound_reads (a :: sc)); reflexivity. }
    destruct a as [k| |c].
    + cbn [sound_reads filter rx] in *. fold (sound_reads sc) in *. destruct (Nat.min (S n) (Nat.min (Pos.to_nat k) (length rem))) as [|m'].
      * injection H as <- <- <- <-. exists [AChunk k]. split; [reflexivity|]. right. reflexivity.
      * destruct (rx sc (skipn (S m') rem) (S n - S m')) as [[[e1 g1] r1] sc1] eqn:E1. injection H as <- <- <- <-.
        destruct (IH _ _ _ _ _ _ E1) as (pre & -> & [P|P]); exists (AChunk k :: pre); (split; [reflexivity|]); [left; exact P|right]. rewrite P. reflexivity.
    + cbn [sound_reads filter rx] in *. fold (sound_reads sc) in *. destruct (IH _ _ _ _ _ _ H) as (pre & -> & [P|P]); exists (AIntr :: pre); (split; [reflexivity|]); auto.
    + cbn [rx] in H. injection H as <- <- <- <-. exists [AFail c]. split; [reflexivity|]. left. discriminate.
Qed.
Lemma rte_mend : forall sc rem n e got rem' sc', rte sc rem n = (e, got, rem', sc') ->
  exists pre, sc = pre ++ sc' /\ (read_codes pre <> [] \/ rte (sound_reads sc) rem n = (e, got, rem', sound_reads sc')).
Proof.
  assert (Z : forall sc rem n, (n =? 0)%N = true -> rte sc rem n = (None, [], rem, sc)) by (intros [|a sc] rem n E; cbn [rte]; rewrite E; reflexivity).
  induction sc as [|a sc IH]; intros rem n e got rem' sc' H; destruct (n =? 0)%N eqn:En;
    try (rewrite (Z _ _ _ En) in H; injection H as <- <- <- <-; exists []; split; [reflexivity|]; right; apply Z, En).
  - cbn [rte] in H. rewrite En in H. injection H as <- <- <- <-. exists []. split; [reflexivity|]. right. cbn [sound_reads filter rte]. rewrite En. reflexivity.
  - destruct a as [k| |c]; cbn [rte] in H; rewrite En in H.
    + cbn [sound_reads filter rte]. fold (sound_reads sc). rewrite En. destruct (clip (N.min n (Npos k)) rem) as [|m].
      * injection H as <- <- <- <-. exists [AChunk k]. split; [reflexivity|]. right. reflexivity.
      * destruct (rte sc (skipn (S m) rem) _) as [[[e1 g1] r1] sc1] eqn:E1. injection H as <- <- <- <-.
        destruct (IH _ _ _ _ _ _ E1) as (pre & -> & [P|P]); exists (AChunk k :: pre); (split; [reflexivity|]); [left; exact P|right]. rewrite P. reflexivity.
    + cbn [sound_reads filter rte]. fold (sound_reads sc). rewrite En. destruct (IH _ _ _ _ _ _ H) as (pre & -> & [P|P]); exists (AIntr :: pre); (split; [reflexivity|]); auto.
    + injection H as <- <- <- <-. exists [AFail c]. split; [reflexivity|]. left. discriminate.
Qed.
Lemma r1_mend : forall sc rem n x rem' sc', r1 sc rem n = (x, rem', sc') ->
  exists pre, sc = pre ++ sc' /\ (read_codes pre <> [] \/ r1 (sound_reads sc) rem n = (x, rem', sound_reads sc')).
Proof.
  intros sc rem [|n] x rem' sc' H; [cbn in H; injection H as <- <- <-; exists []; split; [reflexivity|]; right; reflexivity|].
  destruct sc as [|[k| |c] sc]; cbn [r1] in H; injection H as <- <- <-.
  - exists []. split; [reflexivity|]. right. reflexivity.
  - exists [AChunk k]. split; [reflexivity|]. right. reflexivity.
  - exists [AIntr]. split; [reflexivity|]. right. reflexivity.
  - exists [AFail c]. split; [reflexivity|]. left. discriminate.
Qed.

(** A call on the reader: either a failure happened, or all is as without failures. *)
Definition mends {A} (f : reader -> option A * reader) : Prop := forall r a r', f r = (Some a, r') ->
  exists codes, happened (r_stream r) (r_stream r') codes /\ (codes <> [] \/ f (mend r) = (Some a, mend r')).
Ltac reads_ pre := exists (read_codes pre); split; [eapply happened_reads; [eassumption|reflexivity|reflexivity]|].
Lemma exact_mends : forall n, mends (rd_exact n).
Proof.
  intros n r a r' H. unfold rd_exact in *. destruct (rx _ _ n) as [[[e got] rem'] sc'] eqn:E. apply rx_mend in E. destruct E as (pre & E & P).
  destruct (advance (r_pos r) (lenN got)) eqn:Ea; [|discriminate]. injection H as <- <-. reads_ pre. destruct P as [P|P]; [left; exact P|right].
  unfold mend at 1 2 3 4. cbn [r_stream s_sched s_rem r_pos]. rewrite P, Ea. reflexivity.
Qed.
Lemma to_end_mends : forall n, mends (rd_to_end n).
Proof.
  intros n r a r' H. unfold rd_to_end in *. destruct (rte _ _ n) as [[[e got] rem'] sc'] eqn:E. apply rte_mend in E. destruct E as (pre & E & P).
  destruct (advance (r_pos r) (lenN got)) eqn:Ea; [|discriminate]. injection H as <- <-. reads_ pre. destruct P as [P|P]; [left; exact P|right].
  unfold mend at 1 2 3 4. cbn [r_stream s_sched s_rem r_pos]. rewrite P, Ea. reflexivity.
Qed.
Lemma once_mends : forall n, mends (rd_once n).
Proof.
  intros n r a r' H. unfold rd_once in *. destruct (r1 _ _ n) as [[x rem'] sc'] eqn:E. apply r1_mend in E. destruct E as (pre & E & P). cbn zeta in *.
  destruct (advance (r_pos r) (match x with inl _ => 0%N | inr got => lenN got end)) eqn:Ea; [|discriminate]. injection H as <- <-. reads_ pre. destruct P as [P|P]; [left; exact P|right].
  unfold mend at 1 2 3 4. cbn [r_stream s_sched s_rem r_pos]. rewrite P, Ea. reflexivity.
Qed.
Lemma peek_mends : forall limit, mends (fun r0 =>
  let '(x, r1) := rd_peek (peek_len limit (s_rem (r_stream r0))) r0 in (Some x, r1)).
Proof.
  intros limit r a r' H. unfold rd_peek in *. destruct (r1 _ _ _) as [[x rem'] sc'] eqn:E. apply r1_mend in E. destruct E as (pre & E & P).
  injection H as <- <-. reads_ pre. destruct P as [P|P]; [left; exact P|right].
  unfold mend at 1 2 3 4. cbn [r_stream s_sched s_rem r_pos]. rewrite P. reflexivity.
Qed.
Lemma drop_mends : forall n, mends (rd_drop n).
Proof.
  intros n r a r' H. unfold rd_drop in H. cbn zeta in H. destruct (advance _ _) eqn:Ea; [|discriminate]. injection H as <- <-.
  exists []. split; [exists [], []; repeat split|]. right. unfold rd_drop, mend, with_stream. cbn [r_stream s_rem r_pos]. rewrite Ea. reflexivity.
Qed.
Lemma seek_part_mends : forall n, mends (seek_part n).
Proof.
  intros n r a r' H. unfold seek_part in H. destruct (s_seeks (r_stream r)) as [|[c|] sk] eqn:E.
  - destruct (seek_move _ _) eqn:Em; [|discriminate]. injection H as <- <-. exists []. split; [exists [], []; split; [reflexivity|]; split; [exact E|reflexivity]|].
    right. unfold seek_part, mend. cbn. rewrite Em. reflexivity.
  - injection H as <- <-. exists [c]. split; [exists [], [Some c]; split; [reflexivity|]; split; [exact E|reflexivity]|]. left. discriminate.
  - destruct (seek_move _ _) eqn:Em; [|discriminate]. injection H as <- <-. exists []. split; [exists [], [None]; split; [reflexivity|]; split; [exact E|reflexivity]|].
    right. unfold seek_part, mend. cbn. rewrite Em. reflexivity.
Qed.
Lemma seek_all_mends : forall parts, mends (seek_all parts).
Proof.
  induction parts as [|p ps IH]; intros r a r' H; cbn [seek_all] in *.
  - injection H as <- <-. exists []. split; [apply happened_refl|]. right. reflexivity.
  - destruct (seek_part p r) as [[[e|]|] r1] eqn:E; try discriminate.
    + injection H as <- <-. destruct (seek_part_mends _ _ _ _ E) as (codes & C & [P|P]); exists codes; (split; [exact C|]); [left; exact P|right]. rewrite P. reflexivity.
    + destruct (seek_part_mends _ _ _ _ E) as (codes & C & P). destruct (IH _ _ _ H) as (codes' & C' & P').
      destruct codes as [|c codes].
      * exists codes'. split; [eapply happened_trans0; eauto|]. destruct P as [P|P]; [congruence|]. destruct P' as [P'|P']; [left; exact P'|right]. rewrite P. exact P'.
      * destruct (happened_trans _ _ _ _ _ C C') as (n & Hn). exists n. split; [exact Hn|]. left. intros ->.
        apply happened_left in C, C', Hn. cbn [length] in *. lia.
Qed.
Lemma skip_mends : forall n, mends (skip_to n).
Proof.
  intros n r a r' H. unfold skip_to in *. change (r_pos (mend r)) with (r_pos r). destruct (n <? r_pos r)%N; [discriminate|]. unfold skip_distance in *.
  change (r_seekable (mend r)) with (r_seekable r). destruct (r_seekable r); [apply seek_all_mends; exact H|].
  unfold skip_distance_plain in *. destruct (rte _ _ _) as [[[e got] rem'] sc'] eqn:E. apply rte_mend in E. destruct E as (pre & E & P). injection H as <- <-.
  reads_ pre. destruct P as [P|P]; [left; exact P|right]. unfold mend at 1 2 3 4. cbn [r_stream s_sched s_rem r_pos]. rewrite P. reflexivity.
Qed.

Section WithEnv.
Context {env : Env}.

Definition goes (s s' : pstate) : Prop := exists codes, happened (source s) (source s') codes.
Lemma goes_pre : preorder goes.
Proof. split; [intros s; exists []; apply happened_refl|]. intros a b c (l & H) (m & K). apply (happened_trans _ _ _ _ _ H K). Qed.
Lemma goes_same : forall s s', p_ver s' = p_ver s -> p_handler s' = p_handler s -> p_log s' = p_log s -> p_rd s' = p_rd s -> goes s s'.
Proof. intros s s' _ _ _ H. exists []. unfold source. rewrite H. apply happened_refl. Qed.

Section Count.
Context (K : nat).
Definition sane (s1 s2 : pstate) : Prop := fails_left (source s1) = K /\ s2 = set_rd (mend (p_rd s1)) s1.
Definition hit (s : pstate) : Prop := fails_left (source s) < K.
Lemma hit_goes : forall s s', goes s s' -> hit s -> hit s'.
Proof. intros s s' (l & H) L. apply happened_left in H. unfold hit in *. lia. Qed.
Lemma sane_agrees : forall s1 s2, sane s1 s2 -> agrees s1 s2.
Proof. intros s1 s2 (_ & ->). constructor; reflexivity. Qed.
Lemma sane_upd : forall f, (forall s r, f (set_rd r s) = set_rd r (f s)) -> (forall s, p_rd (f s) = p_rd s) ->
  forall s1 s2, sane s1 s2 -> sane (f s1) (f s2).
Proof. intros f H1 H2 s1 s2 (A & ->). unfold sane, source in *. rewrite H1, H2. auto. Qed.
Lemma m_rdop : forall A (f : reader -> option A * reader), mends f -> erel sane hit goes (rdop f).
Proof.
  intros A f H. split.
  - apply st_rdop. intros s a r E. destruct (H _ _ _ E) as (codes & C & _). exists codes. exact C.
  - intros s1 s2 r t1 (T1 & ->) E Hp. unfold rdop in *. cbn [p_rd set_rd].
    destruct (f (p_rd s1)) as [o r'] eqn:Ef. destruct o as [a|]; injection E as <- <-; [|congruence].
    destruct (H _ _ _ Ef) as (codes & C & P). apply happened_left in C. fold (source s1) in C. destruct codes as [|c codes].
    + right. destruct P as [P|P]; [congruence|]. rewrite P. eexists. split; [reflexivity|]. unfold sane, source. cbn [p_rd set_rd]. split; [cbn [length] in C; lia|reflexivity].
    + left. unfold hit, source. cbn [p_rd set_rd]. cbn [length] in C. lia.
Qed.
Lemma m_warn : forall w p, erel sane hit goes (warn w p).
Proof.
  intros w p. split.
  - intros s _. unfold warn. destruct (p_handler s) as [h|]; [destruct (h _)|]; (exists []; apply happened_refl).
  - intros s1 s2 r t1 (T1 & ->) E _. right. unfold warn in *. cbn [p_handler set_rd p_log].
    destruct (p_handler s1) as [h|]; [destruct (h _)|]; injection E as <- <-; (eexists; split; [reflexivity|]); (split; [exact T1|reflexivity]).
Qed.
Lemma m_reader_pos : erel sane hit goes reader_pos.
Proof. apply (e_same sane hit goes goes_pre); [reflexivity|]. intros s1 s2 (_ & ->). reflexivity. Qed.
Lemma m_run : forall O (p : rdprog O) limit, erel sane hit goes (run_rd p limit).
Proof.
  intros O p. induction p as [r|n k IH|n k IH|k IH|amt k IH]; intros limit; cbn [run_rd].
  - apply (e_ret _ _ _ goes_pre).
  - apply (e_bind _ _ _ goes_pre hit_goes); [apply m_rdop, once_mends|]. intros r. apply IH.
  - destruct (N.of_nat n <=? limit)%N.
    + apply (e_bind _ _ _ goes_pre hit_goes); [apply m_reader_pos|]. intros p0. apply (e_bind _ _ _ goes_pre hit_goes); [apply m_rdop, exact_mends|]. intros r.
      apply (e_bind _ _ _ goes_pre hit_goes); [apply m_reader_pos|]. intros p1. apply IH.
    + apply (e_bind _ _ _ goes_pre hit_goes); [apply m_reader_pos|]. intros p0. apply (e_bind _ _ _ goes_pre hit_goes); [apply m_rdop, to_end_mends|]. intros r.
      apply (e_bind _ _ _ goes_pre hit_goes); [apply m_reader_pos|]. intros p1. apply IH.
  - apply (e_bind _ _ _ goes_pre hit_goes); [apply m_reader_pos|]. intros p0. apply (e_bind _ _ _ goes_pre hit_goes); [apply m_rdop, to_end_mends|]. intros r.
    apply (e_bind _ _ _ goes_pre hit_goes); [apply m_reader_pos|]. intros p1. apply IH.
  - apply (e_bind _ _ _ goes_pre hit_goes); [apply m_rdop, peek_mends|]. intros r. apply (e_bind _ _ _ goes_pre hit_goes); [apply m_rdop, drop_mends|]. intros _. apply IH.
Qed.
Lemma sane_ops : forall O (l : list (op O)) s1 s2 rs t1, sane s1 s2 -> run_ops l s1 = (rs, t1) -> no_panic rs ->
  hit t1 \/ exists t2, run_ops l s2 = (rs, t2) /\ sane t1 t2.
Proof.
  intros O l s1 s2 rs t1. apply (e_run_ops sane hit goes goes_pre goes_same hit_goes sane_agrees).
  - intros h. apply (sane_upd (set_health h)); reflexivity.
  - intros h. apply (sane_upd (set_stack h)); reflexivity.
  - intros h. apply (sane_upd (set_last h)); reflexivity.
  - intros h. apply (sane_upd (set_top h)); reflexivity.
  - intros h. apply (sane_upd (set_attrs h)); reflexivity.
  - apply m_warn.
  - intros n. apply m_rdop, exact_mends.
  - intros n. apply m_rdop, to_end_mends.
  - intros n. apply m_rdop, skip_mends.
  - apply m_run.
Qed.
End Count.

(** From any state: if no read or seek failed during the calls, the reader that never fails
    gives the same results. *)
Lemma sane_run : forall O (l : list (op O)) s rs t, run_ops l s = (rs, t) -> no_panic rs ->
  happened (source s) (source t) [] -> run_ops l (set_rd (mend (p_rd s)) s) = (rs, set_rd (mend (p_rd t)) t).
Proof.
  intros O l s rs t E Hp H. apply happened_left in H. cbn [length] in H.
  destruct (sane_ops (fails_left (source s)) O l s _ rs t (conj eq_refl eq_refl) E Hp) as [X|(t2 & Y & (_ & ->))]; [unfold hit in X; lia|exact Y].
Qed.

(** ** Opening *)
Lemma rx_sound : forall sc rem n e got rem' sc', rx sc rem n = (e, got, rem', sc') ->
  (exists c, e = Some (IoOther c)) \/
  (rx (sound_reads sc) rem n = (e, got, rem', sound_reads sc') /\ exists pre, sc = pre ++ sc' /\ read_codes pre = []).
Proof.
  intros sc rem n e got rem' sc' H. destruct (rx_mend _ _ _ _ _ _ _ H) as (pre & E & P). destruct (rx_codes _ _ _ _ _ _ _ H) as (pre' & E' & P').
  assert (pre' = pre) as -> by (apply (app_inv_tail sc'); congruence).
  destruct e as [[]|]; try contradiction; try (left; eauto; fail); right; (destruct P as [P|P]; [tauto|]); (split; [exact P|exists pre; tauto]).
Qed.
Lemma header_sound : forall data sched seeks r s', header_load (mkStream data 0 sched seeks) = (r, s') ->
  (exists c, r = Err (HeaderIo (IoOther c))) \/
  header_load (mkStream data 0 (sound_reads sched) []) = (r, mkStream (s_rem s') (s_off s') (sound_reads (s_sched s')) []) /\
  happened (mkStream data 0 sched seeks) s' [].
Proof.
  intros data sched seeks r s' H. unfold header_load, st_read_exact in *. cbn [s_sched s_rem s_off s_seeks] in *.
  destruct (rx sched data 23) as [[[e1 g1] rem1] sc1] eqn:E1. apply rx_sound in E1. destruct E1 as [(c & ->)|(E1 & pre1 & P1 & Q1)]; [injection H as <- <-; left; eauto|].
  rewrite E1. cbn [s_sched s_rem s_off s_seeks] in *.
  assert (H1 : forall o, happened (mkStream data 0 sched seeks) (mkStream rem1 o sc1 seeks) []) by (intros o; exists pre1, []; cbn; rewrite Q1; auto).
  destruct e1 as [e1|]; [injection H as <- <-; right; split; [reflexivity|apply H1]|].
  destruct (bytes_eqb g1 magic); [|injection H as <- <-; right; split; [reflexivity|apply H1]].
  destruct (rx sc1 rem1 4) as [[[e2 g2] rem2] sc2] eqn:E2. apply rx_sound in E2. destruct E2 as [(c & ->)|(E2 & pre2 & P2 & Q2)]; [injection H as <- <-; left; eauto|].
  rewrite E2. cbn [s_sched s_rem s_off s_seeks] in *.
  assert (H2 : forall o, happened (mkStream data 0 sched seeks) (mkStream rem2 o sc2 seeks) []).
  { intros o. apply (happened_trans0 _ (mkStream rem1 o sc1 seeks)); [apply H1|]. exists pre2, []. cbn. rewrite Q2. auto. }
  destruct e2 as [e2|]; injection H as <- <-; right; (split; [reflexivity|apply H2]).
Qed.
Definition open_report (e : any_error) : Prop := match e with AnyHeader (HeaderIo (IoOther _)) => True | _ => False end.
Lemma open_sound : forall data sched seeks seekable,
  match any_parser (mkStream data 0 sched seeks) seekable with
  | Ok p => any_parser (mkStream data 0 (sound_reads sched) []) seekable = Ok (set_rd (mend (p_rd p)) p) /\
            happened (mkStream data 0 sched seeks) (source p) []
  | Err e => open_report e \/ any_parser (mkStream data 0 (sound_reads sched) []) seekable = Err e
  | Panic => True
  end.
Proof.
  intros data sched seeks seekable. unfold any_parser. destruct (header_load (mkStream data 0 sched seeks)) as [r s'] eqn:E.
  apply header_sound in E. destruct E as [(c & ->)|(-> & H)]; [left; exact I|]. destruct r as [v|e|]; [|right; reflexivity|exact I].
  destruct (ver_supported v) eqn:Ev; [|right; reflexivity]. unfold parser_create. rewrite Ev. split; [reflexivity|exact H].
Qed.
Lemma sound_nofail : forall l, nofail (sound_reads l) = true.
Proof. induction l as [|[k| |c] l IH]; cbn; auto. Qed.

(** All calls, all loaders: if no read or seek failed, the results are those on a reader
    that never fails. *)
Theorem C66_silent : forall O data sched seeks seekable h p (l : list (op O)) rs t,
  opened data sched seeks seekable h p -> run_ops l p = (rs, t) -> no_panic rs -> happened (source p) (source t) [] ->
  exists p' t', opened data (sound_reads sched) [] seekable h p' /\ run_ops l p' = (rs, t') /\
    p_log t' = p_log t /\ position_of t' = position_of t /\ depth t' = depth t.
Proof.
  intros O data sched seeks seekable h p l rs t (p0 & E & ->) R Hp H. pose proof (open_sound data sched seeks seekable) as K. rewrite E in K. destruct K as (K & _).
  eexists. eexists. split; [eexists; split; [exact K|reflexivity]|]. split; [apply (sane_run _ _ _ _ _ R Hp H)|]. repeat split.
Qed.

(** ** What is reported *)
Lemma fine_regular : forall O (o : op O), op_fine o -> regular o.
Proof.
  assert (W : forall O (p : rdprog O), rd_fine p -> whole_reads O p).
  { intros O p [(r & -> & _)|[(f & ->)|(f & ->)]]; [constructor| |]; (constructor; intros x; constructor). }
  intros O [|ld|ld|] F; try exact I; intros n p H; cbn in H; destruct F; (repeat (destruct H as [<-|H]; [apply W; auto|])); contradiction.
Qed.
Lemma op_silent : forall O (o : op O) s r s', zlib_hands_on env -> op_fine o -> run_op o s = (r, s') -> r <> Panic -> ~ reports_failure r ->
  happened (source s) (source s') [].
Proof.
  intros O o s r s' Z F E Hp N. unfold reports_failure in N.
  assert (C : exists comp own codes, happened (source s) (source s') codes /\ match error_of r with None => codes = [] | Some e => cause comp own codes e s' end).
  { destruct o as [|ld|ld|].
    - exists false, next_own. apply (C54_events O ONext); auto.
    - exists true, load_own. apply (C54_loads O ld (OLoad ld)); auto.
    - exists true, load_own. apply (C54_loads O ld (OLoadBuf ld)); auto.
    - exists false, next_own. apply (C54_events O OSkip); auto. }
  destruct C as (comp & own & codes & H & C). destruct (error_of r) as [e|]; [|subst codes; exact H].
  destruct C as [(c & -> & [X|(_ & X)])|(-> & _)]; [| |exact H]; exfalso; apply N; unfold io_report; rewrite X; exact I.
Qed.
Lemma ops_silent : forall O (l : list (op O)) s rs t, zlib_hands_on env -> Forall op_fine l -> run_ops l s = (rs, t) -> no_panic rs ->
  Forall (fun r => ~ reports_failure r) rs -> happened (source s) (source t) [].
Proof.
  intros O l. induction l as [|o l IH]; intros s rs t Z F E Hp N.
  - injection E as <- <-. apply happened_refl.
  - apply run_ops_cons_inv in E; [|exact Hp]. destruct E as (r & u & rs' & E1 & Hr & E2 & -> & Hp'). inversion F; subst. inversion N; subst.
    eapply happened_trans0; [eapply op_silent; eauto|eapply IH; eauto].
Qed.

(** A history of calls none of whose results reports a failure: the results, the warnings and
    the position are those of the same calls on a reader that never fails and gives all bytes
    asked for. *)
Theorem C66_reported : forall O data sched seeks seekable h p (l : list (op O)) rs t,
  zlib_hands_on env -> Forall op_fine l ->
  opened data sched seeks seekable h p -> run_ops l p = (rs, t) -> no_panic rs -> Forall (fun r => ~ reports_failure r) rs ->
  exists p' t', opened data [] [] seekable h p' /\ run_ops l p' = (rs, t') /\
    p_log t' = p_log t /\ position_of t' = position_of t /\ depth t' = depth t.
Proof.
  intros O data sched seeks seekable h p l rs t Z F Ho R Hp N.
  destruct (C66_silent _ _ _ _ _ _ _ _ _ _ Ho R Hp (ops_silent _ _ _ _ _ Z F R Hp N)) as (p1 & t1 & (q1 & E1 & ->) & R1 & A & B & C).
  assert (Fr : Forall regular l) by (revert F; apply Forall_impl; intros o; apply fine_regular).
  pose proof (C03_schedule_independence O data (sound_reads sched) [] [] seekable h l (sound_nofail _) eq_refl Fr) as K.
  unfold open_as in K. rewrite E1 in K. destruct (any_parser (mkStream data 0 [] []) seekable) as [q2|e|] eqn:E2; try contradiction.
  rewrite R1 in K. destruct (run_ops l (set_handler h q2)) as [rs2 t2] eqn:R2. destruct K as (<- & K1 & K2 & K3 & _).
  exists (set_handler h q2), t2. split; [exists q2; auto|]. split; [exact R2|]. repeat split; congruence.
Qed.

(** ** Loading a whole document *)
Definition tree_reports (r : res any_tree_error (N * tree * (perr + footer))) : Prop :=
  match r with
  | Err (TreeParserCreation e) => open_report e
  | Err (TreeLoad (LoadParser e)) => io_report e
  | Ok (_, _, inl e) => io_report e
  | _ => False
  end.
Definition out_reports (o : res perr (perr + footer)) : Prop :=
  match o with Err e => io_report e | Ok (inl e) => io_report e | _ => False end.
Lemma direct_fine : loader_fine direct_loader. Proof. apply C54_shipped_loaders. Qed.
Definition mended (s : pstate) : pstate := set_rd (mend (p_rd s)) s.
Lemma op_mended : forall O (o : op O) s r s', zlib_hands_on env -> op_fine o -> run_op o s = (r, s') -> r <> Panic -> ~ reports_failure r ->
  run_op o (mended s) = (r, mended s').
Proof.
  intros O o s r s' Z F E Hp N. pose proof (op_silent _ _ _ _ _ Z F E Hp N) as H.
  assert (E' : run_ops [o] s = ([r], s')) by (cbn [run_ops]; rewrite E; destruct r; [reflexivity|reflexivity|congruence]).
  pose proof (sane_run _ _ _ _ _ E' ltac:(unfold no_panic; destruct r; [reflexivity|reflexivity|congruence]) H) as K. unfold mended. cbn [run_ops] in K.
  destruct (run_op o (set_rd (mend (p_rd s)) s)) as [[b|e|] u]; injection K as <- ->; congruence.
Qed.
Lemma loads_mended : forall s ats r s', zlib_hands_on env -> loads s ats r s' -> r <> Panic -> match r with Err e => ~ io_report e | _ => True end ->
  loads (mended s) ats r (mended s').
Proof.
  intros s ats r s' Z.
  assert (OL : forall r u u', run_op (OLoad direct_loader) u = (r, u') -> r <> Panic -> ~ reports_failure r -> run_op (OLoad direct_loader) (mended u) = (r, mended u')).
  { intros r0 u u'. apply (op_mended _ (OLoad direct_loader)); [exact Z|exact direct_fine]. }
  induction 1 as [s s' H|s v s1 vs r s' H L IH|s e s' H|s s' H]; intros Hp N.
  - apply loads_none. apply (OL _ _ _ H); [discriminate|intros X; exact X].
  - eapply loads_some; [apply (OL _ _ _ H); [discriminate|intros X; exact X]|]. apply IH; assumption.
  - apply loads_error. apply (OL _ _ _ H); [discriminate|exact N].
  - congruence.
Qed.
Lemma reads_mended : forall s items o s', zlib_hands_on env -> reads s items o s' -> o <> Panic -> ~ out_reports o ->
  reads (mended s) items o (mended s').
Proof.
  intros s items o s' Z.
  assert (ON : forall r u u', run_op (@ONext aval) u = (r, u') -> r <> Panic -> ~ reports_failure r -> run_op (@ONext aval) (mended u) = (r, mended u')).
  { intros r u u'. apply (op_mended _ (@ONext aval)); [exact Z|exact I]. }
  induction 1 as [s f s' H|s nm s1 ats s2 l o s' H LD R IH|s s1 l o s' H R IH|s e s' H|s s' H|s nm s1 ats e s' H LD|s nm s1 ats s' H LD]; intros Hp N.
  - apply reads_fbx. apply (ON _ _ _ H); [discriminate|]. intros X. apply N. destruct f; exact X.
  - eapply reads_start; [apply (ON _ _ _ H); [discriminate|intros X; exact X]|apply (loads_mended _ _ _ _ Z LD); [discriminate|exact I]|apply IH; assumption].
  - eapply reads_end; [apply (ON _ _ _ H); [discriminate|intros X; exact X]|apply IH; assumption].
  - apply reads_error. apply (ON _ _ _ H); [discriminate|exact N].
  - congruence.
  - eapply reads_attr_error; [apply (ON _ _ _ H); [discriminate|intros X; exact X]|apply (loads_mended _ _ _ _ Z LD); [discriminate|exact N]].
  - congruence.
Qed.

(** Loading a whole document from a reader that may fail: a result that does not report a
    failure is the one a reader that never fails gives. *)
Theorem C66_any_tree : forall data sched seeks seekable, zlib_hands_on env ->
  let r := any_tree (mkStream data 0 sched seeks) seekable in
  r <> Panic -> ~ tree_reports r -> any_tree (mkStream data 0 [] []) seekable = r.
Proof.
  intros data sched seeks seekable Z r Hp N. subst r.
  rewrite (C48_schedule_independence data [] (sound_reads sched) [] seekable eq_refl (sound_nofail _)).
  pose proof (open_sound data sched seeks seekable) as K. unfold any_tree in *.
  destruct (any_parser (mkStream data 0 sched seeks) seekable) as [p|e|] eqn:E; [|destruct K as [K| ->]; [contradiction|reflexivity]|congruence].
  destruct K as (K & _). rewrite K. change (set_rd (mend (p_rd p)) p) with (mended p).
  set (h := Some (fun _ : list (warning * synpos) => @None perr)) in *.
  assert (O1 : opened data sched seeks seekable h (set_handler h p)) by (exists p; auto).
  assert (O2 : opened data (sound_reads sched) [] seekable h (set_handler h (mended p))) by (exists (mended p); auto).
  destruct (load_tree (set_handler h p)) as [x s1] eqn:L1. destruct (C33_load_reads _ _ _ _ _ _ O1 _ _ L1) as (items & o & R1 & M).
  assert (Np : o <> Panic) by (intros ->; cbn in M; subst x; congruence).
  assert (No : ~ out_reports o).
  { intros X. apply N. destruct o as [f|e|]; cbn in M; [destruct M as (t & ds & -> & _); destruct f; exact X|subst x; exact X|contradiction]. }
  pose proof (reads_mended _ _ _ _ Z R1 Np No) as R2. change (mended (set_handler h p)) with (set_handler h (mended p)) in R2.
  pose proof (opened_same _ _ _ _ _ _ _ _ _ _ _ _ _ _ _ _ O1 O2 R1 R2) as S. rewrite L1 in S. cbn [fst] in S.
  destruct (load_tree (set_handler h (mended p))) as [x2 s2]. cbn [fst] in S. subst x2. reflexivity.
Qed.
End WithEnv.

(** ** Examples *)
Module FailCases.
(** A reader that gives one byte at a time, is interrupted once and then fails twice. *)
Definition late (n : nat) : list ioact := repeat (AChunk 1) 60 ++ AIntr :: repeat (AChunk 1) n ++ [AFail 9; AFail 9].
Definition results {O} (sched : list ioact) (l : list (op O)) : list (res perr (obs O)) :=
  match run_from release (sample_doc 7400) sched true l with Some (rs, _) => rs | None => [] end.

(** All calls succeed although the reader would have failed later: the results are those of
    the reader that never fails. *)
Example reported_ex : exists p t, opened (sample_doc 7400) (late 700) [] true None p /\
  run_ops (env:=release) sample_ops p = (results (late 700) sample_ops, t) /\ no_panic (results (late 700) sample_ops) /\
  Forall (fun r => ~ reports_failure r) (results (late 700) sample_ops) /\ Forall op_fine sample_ops /\ zlib_hands_on release /\
  read_codes (late 700) = [9; 9]%N /\ results (late 700) sample_ops = results [] sample_ops.
Proof.
  do 2 eexists. split; [eexists; split; [vm_compute; reflexivity|reflexivity]|]. split; [vm_compute; reflexivity|].
  split; [vm_compute; reflexivity|]. split; [vm_compute; repeat constructor; intros X; exact X|].
  split; [repeat (constructor; [first [exact I|exact direct_fine]|]); constructor|]. split; [apply stored_hands_on|]. split; vm_compute; reflexivity.
Qed.

(** The same reader, failing earlier: the failure is reported, and what follows differs. *)
Example reported_ex2 : map error_of (firstn 2 (results (late 0) sample_ops)) = [None; None] /\
  exists r, In r (results (late 0) sample_ops) /\ reports_failure r.
Proof.
  split; [vm_compute; reflexivity|]. exists (nth 4 (results (late 0) sample_ops) Panic). split; [|vm_compute; exact I].
  apply nth_In. vm_compute. repeat constructor.
Qed.

(** A loader that drops the error of its reader is not among the loaders meant: it returns a
    string cut short, and nothing reports the failure. *)
Definition careless : loader aval :=
  let d := direct_loader in
  mkLoader (ld_bool d) (ld_i16 d) (ld_i32 d) (ld_i64 d) (ld_f32 d) (ld_f64 d) (ld_abool d) (ld_ai32 d) (ld_ai64 d) (ld_af32 d) (ld_af64 d)
    (ld_bin d) (fun _ => RToEnd (fun x => RRet (inr (VString (snd x))))) (ld_bin_buf d) (ld_str_buf d).
Definition cut : list ioact := repeat (AChunk 1) 52 ++ [AFail 9].
Example careless_ex : Forall (fun r => ~ reports_failure r) (results cut [ONext; ld; OLoad careless]) /\
  results cut [ONext; ld; OLoad careless] <> results [] [ONext; ld; OLoad careless].
Proof. split; [vm_compute; repeat constructor; intros X; exact X|vm_compute; discriminate]. Qed.

(** Loading the document. *)
Example any_tree_ex : (exists v t f, any_tree (env:=release) (mkStream (sample_doc 7400) 0 (late 700) []) true = Ok (v, t, inr f)) /\
  tree_reports (any_tree (env:=release) (mkStream (sample_doc 7400) 0 (late 0) []) true) /\
  tree_reports (any_tree (env:=release) (mkStream (sample_doc 7400) 0 (late 130) []) true).
Proof. split; [do 3 eexists; vm_compute; reflexivity|]. split; vm_compute; exact I. Qed.
End FailCases.

Print Assumptions C66_silent.
Print Assumptions C66_reported.
Print Assumptions C66_any_tree.
