(** Truncated and extended documents (C20). *)
Require Import Coq.Lists.List Coq.NArith.NArith Coq.ZArith.ZArith Coq.Bool.Bool Coq.micromega.Lia.
Require Import ZifyBool ZifyNat ZifyN.
Require Import Coq.Init.Byte.
Require Import Verif.Base Verif.BaseFacts Verif.Utf8 Verif.Types Verif.Io Verif.IoFacts Verif.Parser Verif.MonadFacts Verif.ParserSteps Verif.ParserShape Verif.SpecHist Verif.ParserHist Verif.ParserPos Verif.ParserRel Verif.Loaders Verif.Spec Verif.Zlib Verif.Samples Verif.CutRel Verif.CutParser Verif.CutLoad Verif.PropsEvents Verif.PropsRel.
Import ListNotations.
Ltac Zify.zify_post_hook ::= Z.div_mod_to_equations.
Local Open Scope N_scope.

Section WithEnv.
Context {env : Env}.

(** A client that opens [data] and makes the calls [l] gets the results [rs], the last of
    which is the end of the document with the well-formed footer [f]; [s] is the parser then. *)
Definition completes {O} (data : list byte) (sched : list ioact) (seeks : list (option N)) (seekable : bool)
  (h : option handler) (l : list (op O)) (rs : list (res perr (obs O))) (f : footer) (s : pstate) : Prop :=
  exists p, open_as data sched seeks seekable h = Ok p /\ run_ops l p = (rs, s) /\
    exists rs0, rs = rs0 ++ [Ok (BEvent (EvEndFbx (inr f)))].

(** How many bytes of the stream have been read. *)
Definition consumed (s : pstate) : N := s_off (r_stream (p_rd s)).

Section Cut.
Context (x1 x2 : list byte) (c : N).

Lemma end_is_next : forall O (o : op O) s f t, run_op o s = (Ok (BEvent (EvEndFbx f)), t) ->
  o = ONext /\ next_event (set_attrs None s) = (Ok (EvEndFbx f), t).
Proof.
  intros O o s f t H.
  assert (L : forall b (l : loader O),
    (let* a := gets p_attrs in match a with Some _ => let* v := load_next_gen b l in ret (BAttr v) | None => ret BIgnored end) s <> (Ok (BEvent (EvEndFbx f)), t)).
  { intros b l X. rewrite bind_gets in X. destruct (p_attrs s); [|discriminate]. mstep X as v u Y; [|discriminate|discriminate]. discriminate. }
  destruct o as [|l|l|]; cbn [run_op] in H.
  - split; [reflexivity|]. rewrite bind_modify in H. mstep H as e u X; [|discriminate|discriminate].
    destruct e as [n| |g]; [mstep H as w v Y; discriminate|discriminate|]. injection H as -> ->. exact X.
  - destruct (L false l H).
  - destruct (L true l H).
  - rewrite bind_modify in H. mstep H as v u Y; [|discriminate|discriminate]. discriminate.
Qed.

Lemma nth_app_last : forall A (l : list A) x r rs, r :: rs = l ++ [x] -> rs = [] /\ r = x \/ exists l', rs = l' ++ [x].
Proof.
  intros A l x r rs H. destruct l as [|y l]; cbn in H.
  - injection H as -> ->. auto.
  - injection H as -> ->. right. eauto.
Qed.
Lemma run_nil : forall O (l : list (op O)) s t, run_ops l s = ([], t) -> l = [] /\ t = s.
Proof.
  intros O [|o l] s t H; [injection H as <-; auto|]. cbn [run_ops] in H.
  destruct (run_op o s) as [[a|e|] u]; [destruct (run_ops l u)|destruct (run_ops l u)|]; discriminate.
Qed.
Lemma run_step : forall O (o : op O) l s r rs t, run_ops (o :: l) s = (r :: rs, t) ->
  exists u, run_op o s = (r, u) /\ ((r = Panic /\ rs = [] /\ t = u) \/ (r <> Panic /\ run_ops l u = (rs, t))).
Proof.
  intros O o l s r rs t H. cbn [run_ops] in H. destruct (run_op o s) as [[a|e|] u] eqn:E.
  - destruct (run_ops l u) as [rs' u'] eqn:E2. injection H as <- <- <-. exists u. split; [reflexivity|]. right. split; [discriminate|exact E2].
  - destruct (run_ops l u) as [rs' u'] eqn:E2. injection H as <- <- <-. exists u. split; [reflexivity|]. right. split; [discriminate|exact E2].
  - injection H as <- <- <-. exists u. split; [reflexivity|]. left. auto.
Qed.

(** From the end of the stream, or past it, or with a stopped parser, no good end is reached
    inside the first [c] bytes. *)
Lemma never : forall O (l : list (op O)) s rs0 f t, run_ops l s = (rs0 ++ [Ok (BEvent (EvEndFbx (inr f)))], t) ->
  (gone c s -> over c t) /\ ~ stopped s.
Proof.
  intros O l. induction l as [|o l IH]; intros s rs0 f t H; [cbn in H; destruct rs0; discriminate|].
  destruct (rs0 ++ [Ok (BEvent (EvEndFbx (inr f)))]) as [|r rs] eqn:E; [destruct rs0; discriminate|].
  apply run_step in H. destruct H as (u & H1 & [(-> & -> & ->)|(Hr & H2)]).
  - exfalso. symmetry in E. apply nth_app_last in E. destruct E as [[_ E]|[l' E]]; [discriminate|destruct l'; discriminate].
  - symmetry in E. apply nth_app_last in E. destruct E as [[-> ->]|[rs' ->]].
    + apply run_nil in H2. destruct H2 as [_ ->].
      pose proof (end_is_next _ _ _ _ _ H1) as [-> Hn]. split.
      * intros [G|G].
        { apply (over_fwd c s); [|exact G]. apply (steps_elim _ _ _ _ _ _ (run_op_fwd _ _) H1). discriminate. }
        { exfalso. revert Hn. apply dead_next_event. exact G. }
      * intros G. apply next_event_shape in Hn; [|discriminate]. cbn [p_health set_attrs] in Hn. unfold stopped in G.
        destruct (p_health s); [congruence|destruct Hn as [_ Hn]; discriminate|destruct Hn as [_ Hn]; discriminate].
    + destruct (IH _ _ _ _ H2) as [I1 I2]. split.
      * intros G. apply I1. apply (gone_fwd c s); [|exact G]. apply (steps_elim _ _ _ _ _ _ (run_op_fwd _ _) H1). exact Hr.
      * intros G. apply I2. exact (proj1 (not_running_stays _ _ _ _ _ G H1 Hr)).
Qed.

Lemma run_cut : forall O (l : list (op O)) s1 s2 rs0 f t1, Forall consuming_op l -> cut x1 x2 c s1 s2 ->
  run_ops l s1 = (rs0 ++ [Ok (BEvent (EvEndFbx (inr f)))], t1) -> consumed t1 = c ->
  exists t2, run_ops l s2 = (rs0 ++ [Ok (BEvent (EvEndFbx (inr f)))], t2) /\ cut x1 x2 c t1 t2.
Proof.
  intros O l. induction l as [|o l IH]; intros s1 s2 rs0 f t1 Hl C H Hc; [cbn in H; destruct rs0; discriminate|].
  destruct (rs0 ++ [Ok (BEvent (EvEndFbx (inr f)))]) as [|r rs] eqn:E; [destruct rs0; discriminate|].
  inversion Hl as [|o' l' Ho Hl']; subst o' l'.
  assert (NO : ~ over c t1) by (unfold over, consumed in *; lia).
  apply run_step in H. destruct H as (u & H1 & [(-> & -> & ->)|(Hr & H2)]).
  - exfalso. symmetry in E. apply nth_app_last in E. destruct E as [[_ E]|[l' E]]; [discriminate|destruct l'; discriminate].
  - symmetry in E. apply nth_app_last in E. destruct E as [[-> ->]|[rs' ->]].
    + apply run_nil in H2. destruct H2 as [-> ->].
      pose proof (end_is_next _ _ _ _ _ H1) as [-> Hn].
      assert (Ca : cut x1 x2 c (set_attrs None s1) (set_attrs None s2)) by (revert C; apply cut_upd; reflexivity).
      destruct (proj2 (o_next_event x1 x2 c) _ _ _ _ Ca Hn) as [[G|G]|(t2 & Y & K)]; [contradiction|destruct (G f eq_refl)|].
      exists t2. split; [|exact K]. cbn [run_ops run_op]. rewrite bind_modify, (bind_ok _ _ _ _ _ _ _ Y). reflexivity.
    + destruct (op_cut x1 x2 c _ _ _ _ _ _ Ho C H1 Hr) as [G|[G|(u2 & Y & K)]].
      * exfalso. exact (NO (proj1 (never _ _ _ _ _ _ H2) G)).
      * destruct (proj2 (never _ _ _ _ _ _ H2) G).
      * destruct (IH _ _ _ _ _ Hl' K H2 Hc) as (t2 & Z & K2). exists t2. split; [|exact K2].
        cbn [run_ops]. rewrite Y, Z. destruct r; [reflexivity|reflexivity|congruence].
Qed.

(** Opening. *)
Lemma open_cut : forall q sched seeks seekable h p, c = lenN q -> 27 <= c ->
  open_as (q ++ x1) sched seeks seekable h = Ok p ->
  exists p', open_as (q ++ x2) sched seeks seekable h = Ok p' /\ cut x1 x2 c p p'.
Proof.
  intros q sched seeks seekable h p Hc H27 H. unfold open_as, any_parser, header_load, st_read_exact in *.
  cbn [s_sched s_rem s_off s_seeks] in *.
  destruct (rx sched (q ++ x1) 23) as [[[e1 g1] r1] sc1] eqn:E1. destruct e1 as [e1|]; [discriminate|].
  pose proof (rx_gen _ _ _ _ _ _ _ E1) as (_ & _ & G1 & _). specialize (G1 eq_refl).
  destruct (rx_cut x1 x2 _ _ _ _ _ _ _ E1) as [A|[[_ A]|(q1 & A1 & B1 & C1)]]; [unfold lenN in *; lia|congruence|].
  rewrite C1. destruct (bytes_eqb g1 magic); [|discriminate]. cbn [s_sched s_rem s_off s_seeks] in *.
  rewrite A1 in H. destruct (rx sc1 (q1 ++ x1) 4) as [[[e2 g2] r2] sc2] eqn:E2. destruct e2 as [e2|]; [discriminate|].
  pose proof (rx_gen _ _ _ _ _ _ _ E2) as (_ & _ & G2 & _). specialize (G2 eq_refl).
  destruct (rx_cut x1 x2 _ _ _ _ _ _ _ E2) as [A|[[_ A]|(q2 & A2 & B2 & C2)]]; [unfold lenN in *; lia|congruence|].
  rewrite C2. destruct (ver_supported (le_dec g2)) eqn:Ev; [|discriminate].
  unfold parser_create in *. rewrite Ev in *. injection H as <-. eexists. split; [reflexivity|].
  eexists. split; [|reflexivity]. exists q2. cbn. split; [exact A2|]. split; [unfold lenN in *; lia|reflexivity].
Qed.
End Cut.

Lemma completes_det : forall O data sched seeks seekable h (l : list (op O)) rs f s rs' f' s',
  completes data sched seeks seekable h l rs f s -> completes data sched seeks seekable h l rs' f' s' -> rs' = rs /\ f' = f /\ s' = s.
Proof.
  intros O data sched seeks seekable h l rs f s rs' f' s' (p & E1 & E2 & r0 & ->) (p' & E1' & E2' & r0' & ->).
  rewrite E1 in E1'. injection E1' as <-. rewrite E2 in E2'. injection E2' as E -> . apply app_inj_tail in E. destruct E as [-> E].
  injection E as <-. auto.
Qed.

Lemma open_opened : forall data sched seeks seekable h p, open_as data sched seeks seekable h = Ok p -> opened data sched seeks seekable h p.
Proof.
  intros data sched seeks seekable h p H. unfold open_as in H. unfold opened.
  destruct (any_parser (mkStream data 0 sched seeks) seekable) as [p0|e|]; try discriminate. injection H as <-. eauto.
Qed.

Lemma ends_no_panic : forall O (l : list (op O)) s rs0 x t, run_ops l s = (rs0 ++ [Ok x], t) -> no_panic (rs0 ++ [Ok x]).
Proof.
  intros O l. induction l as [|o l IH]; intros s rs0 x t H; [cbn in H; destruct rs0; discriminate|].
  destruct (rs0 ++ [Ok x]) as [|r rs] eqn:E; [destruct rs0; discriminate|].
  apply run_step in H. destruct H as (u & H1 & [(-> & -> & ->)|(Hr & H2)]).
  - exfalso. symmetry in E. apply nth_app_last in E. destruct E as [[_ E]|[l' E]]; [discriminate|destruct l'; discriminate].
  - symmetry in E. apply nth_app_last in E. destruct E as [[-> ->]|[rs' ->]]; [reflexivity|].
    apply IH in H2. unfold no_panic in *. cbn [existsb]. rewrite H2. destruct r; [reflexivity|reflexivity|congruence].
Qed.

(** What has been read when a good end is reported lies in the stream, and what follows is
    still there. *)
Lemma completes_off : forall O data sched seeks seekable h (l : list (op O)) rs f s,
  completes data sched seeks seekable h l rs f s ->
  27 <= consumed s /\ s_rem (r_stream (p_rd s)) = dropN (consumed s) data.
Proof.
  intros O data sched seeks seekable h l rs f s (p & E1 & E2 & rs0 & ->).
  pose proof (ends_no_panic _ _ _ _ _ _ E2) as Np.
  pose proof (run_ops_fwd _ _ _ _ _ E2 Np) as (_ & _ & _ & d & pp & (M1 & M2 & _) & _).
  apply open_opened in E1. apply opened_init in E1. destruct E1 as (_&_&_&_&_&_&_&_&_&Eo&Er&_).
  unfold consumed. rewrite M2, Eo, M1, Er, dropN_dropN. split; [lia|]. f_equal. 
Qed.

(** Reading the footer only reads. *)
Definition tight (s t : pstate) : Prop :=
  s_off (r_stream (p_rd t)) + lenN (s_rem (r_stream (p_rd t))) = s_off (r_stream (p_rd s)) + lenN (s_rem (r_stream (p_rd s))).
Lemma tight_pre : preorder tight.
Proof. split; unfold tight; intros; congruence. Qed.
Lemma moved_tight : forall d p r r', d <= lenN (s_rem (r_stream r)) -> rd_moved d p r r' ->
  s_off (r_stream r') + lenN (s_rem (r_stream r')) = s_off (r_stream r) + lenN (s_rem (r_stream r)).
Proof. intros d p r r' L (M1 & M2 & _). rewrite M1, M2, lenN_dropN. lia. Qed.
Lemma read_exact_tight : forall n, steps tight (read_exact n).
Proof.
  intros n. unfold read_exact, try_read. repeat steps_step tight_pre.
  apply st_rdop. intros s a r E. unfold tight. cbn [set_rd p_rd]. apply rd_exact_spec in E. destruct a as [e|got].
  - destruct E as (d & [L _] & M & _). apply (moved_tight _ _ _ _ L M).
  - destruct E as (E & L & M & _). apply (fun H => moved_tight _ _ _ _ H M). rewrite E, lenN_app. unfold lenN. lia.
Qed.
Lemma warn_tight : forall w p, steps tight (warn w p).
Proof.
  intros w p s _. unfold warn. destruct (p_handler s) as [h|]; [destruct (h _)|]; reflexivity.
Qed.
Lemma footer_tight : steps tight read_footer.
Proof.
  unfold read_footer, reader_pos, broken. repeat first [apply read_exact_tight|apply warn_tight|steps_step tight_pre].
Qed.
Lemma next_k_last : forall prev k s f t, next_k prev k s = (Ok (EvEndFbx (inr f)), t) ->
  exists u, p_rd u = p_rd s /\ read_footer u = (Ok f, t).
Proof.
  intros prev k s f t H. pose proof (next_k_kind _ _ _ _ _ H) as ->. unfold next_k in H.
  cbn [when ekind_eqb] in H. rewrite !bind_modify, bind_gets in H. mstep H as [] u4 E4; [|discriminate|discriminate].
  rewrite bind_gets in H. mstep H as [] u6 E6; [|discriminate|discriminate].
  mstep H as r u7 E7; [|discriminate|discriminate]. injection H as -> ->.
  unfold assert_ in E4, E6. match type of E4 with (if ?b then _ else _) _ = _ => destruct b end; [|discriminate]. injection E4 as <-.
  match type of E6 with (if ?b then _ else _) _ = _ => destruct b end; [|discriminate]. injection E6 as <-.
  unfold try_ in E7. match type of E7 with (let (_, _) := ?x in _) = _ => destruct x as [[g|e|] v] eqn:Ef end; [|discriminate|discriminate].
  injection E7 as -> ->. eexists. split; [|exact Ef]. reflexivity.
Qed.
Lemma good_next : forall s f t, next_event s = (Ok (EvEndFbx (inr f)), t) ->
  exists u, rd_fwd (p_rd s) (p_rd u) /\ ~ dead u /\ tight u t.
Proof.
  intros s f t H. rewrite next_event_split in H. rewrite bind_gets in H.
  mstep H as [] u X; [|discriminate|discriminate].
  assert (u = s) as -> by (unfold ensure_continuable in X; destruct (p_health s); congruence).
  mstep H as r u Y; [|discriminate|discriminate]. unfold try_ in Y.
  destruct (next_event_impl s) as [[k|e|] v] eqn:E; [| |discriminate]; injection Y as <- <-.
  - apply next_k_last in H. destruct H as (u & R & H). exists u. split; [|split].
    + pose proof (steps_elim _ _ _ _ _ _ next_event_impl_fwd E ltac:(discriminate)) as F.
      assert (F2 : rd_fwd (p_rd s) (p_rd u)) by (rewrite R; apply F). exact F2.
    + intros D. unfold read_footer, reader_pos in H. rewrite bind_gets in H. mstep H as b w Z; [|discriminate|discriminate].
      revert Z. apply dead_exact; [discriminate|exact D].
    + apply (steps_elim _ _ _ _ _ _ footer_tight H). discriminate.
  - destruct (aborts_noval e _ _ _ H).
Qed.
Lemma good_run : forall O (l : list (op O)) s rs0 f t, run_ops l s = (rs0 ++ [Ok (BEvent (EvEndFbx (inr f)))], t) ->
  exists u, rd_fwd (p_rd s) (p_rd u) /\ ~ dead u /\ tight u t.
Proof.
  intros O l. induction l as [|o l IH]; intros s rs0 f t H; [cbn in H; destruct rs0; discriminate|].
  destruct (rs0 ++ [Ok (BEvent (EvEndFbx (inr f)))]) as [|r rs] eqn:E; [destruct rs0; discriminate|].
  apply run_step in H. destruct H as (u & H1 & [(-> & -> & ->)|(Hr & H2)]).
  - exfalso. symmetry in E. apply nth_app_last in E. destruct E as [[_ E]|[l' E]]; [discriminate|destruct l'; discriminate].
  - symmetry in E. apply nth_app_last in E. destruct E as [[-> ->]|[rs' ->]].
    + apply run_nil in H2. destruct H2 as [_ ->]. pose proof (end_is_next _ _ _ _ _ H1) as [-> Hn].
      apply (good_next _ _ _ Hn).
    + destruct (IH _ _ _ _ H2) as (v & F & D & T). exists v. split; [|split; [exact D|exact T]].
      apply (rd_fwd_trans _ (p_rd u)); [|exact F]. apply (steps_elim _ _ _ _ _ _ (run_op_fwd _ _) H1). exact Hr.
Qed.

(** The bytes a complete parse has consumed are in the stream: at least the 27 bytes of the
    header, at most all of it, and what follows them is still unread. *)
Theorem C20_consumed_in_stream : forall O data sched seeks seekable h (l : list (op O)) rs f s,
  completes data sched seeks seekable h l rs f s ->
  27 <= consumed s /\ consumed s <= lenN data /\ s_rem (r_stream (p_rd s)) = dropN (consumed s) data.
Proof.
  intros O data sched seeks seekable h l rs f s H.
  destruct (completes_off _ _ _ _ _ _ _ _ _ _ H) as [A B]. split; [exact A|]. split; [|exact B].
  destruct H as (p & E1 & E2 & rs0 & ->).
  destruct (good_run _ _ _ _ _ _ E2) as (u & (d & pp & (M1 & M2 & _) & _) & D & T).
  apply open_opened in E1. apply opened_init in E1. destruct E1 as (_&_&_&_&_&_&_&_&_&Eo&Er&_).
  unfold tight in T. unfold dead in D. unfold consumed in *. rewrite Er, dropN_dropN in M1.
  assert (L : lenN (s_rem (r_stream (p_rd u))) <> 0) by (intros X; apply D; apply lenN_0; exact X).
  rewrite M1, lenN_dropN in L, T. lia.
Qed.

(** What follows the consumed bytes never matters: with any other continuation the same calls
    give the same results, and consume the same bytes. *)
Theorem C20_rest_never_matters :
  forall O data sched seeks seekable h (l : list (op O)) rs f s, Forall consuming_op l ->
  completes data sched seeks seekable h l rs f s ->
  forall rest, exists s', completes (takeN (consumed s) data ++ rest) sched seeks seekable h l rs f s' /\
    consumed s' = consumed s /\ s_rem (r_stream (p_rd s')) = rest /\
    p_log s' = p_log s /\ position_of s' = position_of s.
Proof.
  intros O data sched seeks seekable h l rs f s Hl H rest.
  destruct (C20_consumed_in_stream _ _ _ _ _ _ _ _ _ _ H) as (A & B & C).
  destruct H as (p & E1 & E2 & rs0 & ->).
  assert (L : consumed s = lenN (takeN (consumed s) data)) by (rewrite lenN_takeN; lia).
  rewrite <- (takeN_dropN _ (consumed s) data) in E1.
  destruct (open_cut (dropN (consumed s) data) rest (consumed s) _ _ _ _ _ _ L A E1) as (p' & E1' & K).
  destruct (run_cut _ _ _ _ _ _ _ _ _ _ Hl K E2 eq_refl) as (s' & E2' & K').
  exists s'. split; [exists p'; eauto|]. destruct K' as (r' & (q & Q1 & Q2 & ->) & ->). cbn. unfold consumed in *.
  assert (q = []) as -> by (apply lenN_0; lia). auto.
Qed.

(** A document cut anywhere before the last byte its complete parse consumes is never parsed to
    a good end by the same calls. *)
Theorem C20_truncated :
  forall O data sched seeks seekable h (l : list (op O)) rs f s, Forall consuming_op l ->
  completes data sched seeks seekable h l rs f s ->
  forall n, n < consumed s ->
  forall rs' f' s', ~ completes (takeN n data) sched seeks seekable h l rs' f' s'.
Proof.
  intros O data sched seeks seekable h l rs f s Hl H n Hn rs' f' s' H'.
  destruct (C20_consumed_in_stream _ _ _ _ _ _ _ _ _ _ H) as (A & B & C).
  destruct (C20_consumed_in_stream _ _ _ _ _ _ _ _ _ _ H') as (A' & B' & C').
  rewrite lenN_takeN in B'.
  destruct (C20_rest_never_matters _ _ _ _ _ _ _ _ _ _ Hl H' (dropN (consumed s') data)) as (s2 & H2 & E & _).
  assert (X : takeN (consumed s') (takeN n data) = takeN (consumed s') data).
  { rewrite !takeN_firstn, firstn_firstn. f_equal. lia. }
  rewrite X, takeN_dropN in H2. destruct (completes_det _ _ _ _ _ _ _ _ _ _ _ _ _ H H2) as (_ & _ & ->). lia.
Qed.

Lemma regular_consuming : forall O (o : op O), regular o -> consuming_op o.
Proof.
  assert (W : forall O (p : rdprog O), whole_reads O p -> consuming O p) by (induction 1; constructor; auto).
  intros O [|l|l|] H; try exact I; intros n p Hp; apply W; apply (H n p Hp).
Qed.

(** The same when the truncated stream is delivered in other pieces, for clients whose results
    do not depend on the pieces. *)
Theorem C20_truncated_any_schedule :
  forall O data sched seeks seekable h (l : list (op O)) rs f s, nofail sched = true -> Forall regular l ->
  completes data sched seeks seekable h l rs f s ->
  forall n sched', n < consumed s -> nofail sched' = true ->
  forall rs' f' s', ~ completes (takeN n data) sched' seeks seekable h l rs' f' s'.
Proof.
  intros O data sched seeks seekable h l rs f s N1 Hl H n sched' Hn N2 rs' f' s' (p' & E1' & E2' & rs0' & ->).
  pose proof (C03_schedule_independence _ (takeN n data) sched' sched seeks seekable h l N2 N1 Hl) as K.
  rewrite E1' in K. destruct (open_as (takeN n data) sched seeks seekable h) as [p2|e|] eqn:E; [|contradiction|contradiction].
  rewrite E2' in K. destruct (run_ops l p2) as [rs2 s2] eqn:E2. destruct K as (<- & _).
  refine (C20_truncated _ _ _ _ _ _ _ _ _ _ _ H n Hn (rs0' ++ [Ok (BEvent (EvEndFbx (inr f')))]) f' s2 _).
  - revert Hl. apply Forall_impl. apply regular_consuming.
  - exists p2. eauto.
Qed.

(** The loaders of the crate consume what they look at. *)
Theorem C20_bundled_loaders_consume : consuming_op (OLoad direct_loader) /\ consuming_op (OLoad type_loader).
Proof. split; apply regular_consuming; apply C03_direct_loader_regular. Qed.
End WithEnv.

(** ** Example: the sample document with bytes after it, read whole and in small pieces. *)
Definition longer : list byte := sample_doc 7400 ++ repeat x2a 300.
Definition whole_client : list (op aval) := removelast sample_ops.
Example truncated_example :
  Forall consuming_op whole_client /\ Forall regular whole_client /\ nofail choppy = true /\
  exists rs f s, completes (env:=release) longer choppy [] true None whole_client rs f s /\
    consumed s = lenN (sample_doc 7400) /\ lenN longer = consumed s + 300 /\ length rs = 16%nat.
Proof.
  assert (R : Forall regular whole_client).
  { unfold whole_client. cbn [removelast sample_ops]. repeat constructor; try exact I; apply C03_direct_loader_regular. }
  split; [revert R; apply Forall_impl; apply regular_consuming|].
  split; [exact R|]. split; [vm_compute; reflexivity|].
  assert (E : exists p, open_as longer choppy [] true None = Ok p) by (eexists; vm_compute; reflexivity).
  destruct E as [p E].
  assert (X : match run_ops (env:=release) whole_client p with
              | (rs, s) => exists f, last rs Panic = Ok (BEvent (EvEndFbx (inr f))) /\ consumed s = lenN (sample_doc 7400) /\ length rs = 16%nat
              end).
  { revert E. destruct (open_as longer choppy [] true None) as [q|e|] eqn:Q; [|discriminate|discriminate]. intros E.
    assert (q = p) as <- by congruence. revert Q. clear. intros Q.
    assert (Z : match open_as longer choppy [] true None with Ok q => 
       match run_ops (env:=release) whole_client q with
              | (rs, s) => exists f, last rs Panic = Ok (BEvent (EvEndFbx (inr f))) /\ consumed s = lenN (sample_doc 7400) /\ length rs = 16%nat
              end | _ => False end).
    { vm_compute. eexists. split; [reflexivity|]. split; reflexivity. }
    rewrite Q in Z. exact Z. }
  destruct (run_ops (env:=release) whole_client p) as [rs s] eqn:Er. destruct X as (f & X1 & X2 & X3).
  exists rs, f, s. split; [|split; [exact X2|split; [rewrite X2; vm_compute; reflexivity|exact X3]]].
  exists p. split; [exact E|]. split; [exact Er|]. exists (removelast rs).
  rewrite <- X1. apply app_removelast_last. intros ->. discriminate.
Qed.

Print Assumptions C20_consumed_in_stream.
Print Assumptions C20_rest_never_matters.
Print Assumptions C20_truncated.
Print Assumptions C20_truncated_any_schedule.
Print Assumptions C20_bundled_loaders_consume.
