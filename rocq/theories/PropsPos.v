(** Positions of errors and warnings, and the accessors for the current node (C50, C51, C52). *)
Require Import Coq.Lists.List Coq.NArith.NArith Coq.ZArith.ZArith Coq.Bool.Bool Coq.micromega.Lia Coq.Sorting.Sorted.
Require Import ZifyBool ZifyNat ZifyN.
Require Import Verif.Base Verif.BaseFacts Verif.Utf8 Verif.Types Verif.Io Verif.IoFacts Verif.Parser Verif.MonadFacts Verif.ParserSteps Verif.ParserShape Verif.SpecHist Verif.ParserHist Verif.ParserPos Verif.SpecPos Verif.ReadFacts Verif.WarnPos Verif.PropsSafety Verif.PropsEvents.
Import ListNotations.
Ltac Zify.zify_post_hook ::= Z.div_mod_to_equations.

Section WithEnv.
Context {env : Env}.

(** ** Where nodes begin *)
Lemma start_node_pos : forall start h s k s', start_node start h s = (Ok k, s') ->
  exists n rest, p_stack s' = n :: rest /\ map sn_start rest = map sn_start (p_stack s) /\ sn_start n = start /\
    rpos s' = (rpos s + lenN (sn_name n))%N.
Proof.
  intros start h s k s' H. unfold start_node in H. mstep H as u s1 E1; try discriminate.
  assert (R1 : rpos s1 = rpos s /\ p_stack s1 = p_stack s).
  { destruct (bN (nh_nlen h) =? 0)%N; cbn [when] in E1; [|injection E1 as _ <-; auto].
    unfold bind at 1 in E1. unfold position in E1. destruct (position_of s) as [p|]; [|discriminate].
    unfold reader_pos in E1. rewrite !bind_gets in E1. apply warn_log in E1. subst s1. auto. }
  mstep H as name s2 E2; try discriminate. apply read_exact_bytes in E2. destruct E2 as (_ & Ln & P2 & E2).
  destruct (utf8_valid name); [|discriminate]. unfold reader_pos in H. rewrite bind_gets in H.
  mstep H as aend s3 E3; try discriminate.
  assert (s3 = s2) as ->. { unfold add_u64 in E3. destruct (_ <? _)%N; [injection E3 as _ <-; reflexivity|]. destruct ovf_checks; [discriminate|injection E3 as _ <-; reflexivity]. }
  rewrite !bind_modify in H. injection H as <- <-. destruct R1 as [R1 R2].
  assert (R3 : p_stack s2 = p_stack s) by (rewrite E2; cbn [p_stack set_rd]; exact R2).
  assert (R4 : rpos s2 = (rpos s + N.of_nat (N.to_nat (bN (nh_nlen h))))%N) by (unfold rpos in *; rewrite P2, R1; reflexivity).
  do 2 eexists. split; [reflexivity|]. cbn [sn_start sn_name]. split; [|split; [reflexivity|]].
  - unfold count_child. destruct (p_stack s2) as [|m st] eqn:Es; cbn [set_top set_stack p_stack]; rewrite <- R3; [rewrite Es|]; reflexivity.
  - unfold lenN. rewrite Ln, <- R4. unfold count_child. destruct (p_stack s2); reflexivity.
Qed.
Lemma impl_start_pos : forall s s', impl_path s (Ok KStart) s' ->
  exists n rest, p_stack s' = n :: rest /\ map sn_start rest = map sn_start (p_stack s) /\
    rpos s' = (sn_start n + (header_size (p_ver s) + lenN (sn_name n)))%N.
Proof.
  intros s s' H. inversion H; subst.
  match goal with A : at_header _ _, B : read_node_header _ = _, C : start_node _ _ _ = _ |- _ => rename A into HA; rename B into HB; rename C into HC end.
  destruct HA as [HA _].
  assert (S1 : silent s s1) by (eapply steps_elim; [apply skip_unread_silent | exact HA | discriminate]).
  pose proof (read_node_header_bytes _ _ _ HB) as (_ & P & E2). rewrite hdr_size in P.
  destruct (silent_stack _ _ S1) as (X1 & _ & X3). rewrite X3 in P.
  destruct (start_node_pos _ _ _ _ _ HC) as (n & rest & Q1 & Q2 & Q3 & Q4). exists n, rest. split; [exact Q1|]. split.
  - rewrite Q2, E2. cbn [p_stack set_rd]. rewrite X1. reflexivity.
  - rewrite Q4, Q3. unfold rpos in *. rewrite P. lia.
Qed.

Lemma starts_step : forall O (o : op O) t s r s', tracked t s -> run_op o s = (r, s') -> r <> Panic ->
  failed_next (o, r) = false ->
  map sn_start (p_stack s') = node_starts (p_ver s) (map sn_start (p_stack s)) [((o, r), rpos s')].
Proof.
  intros O o t s r s' Ht H Hp Hf. apply run_op_shape in H; [|exact Hp]. destruct o as [|l|l|]; cbn [op_shape] in H.
  - destruct H as (r0 & s1 & Hn & H). destruct r0 as [e|e|]; [|destruct H; subst; discriminate|tauto].
    destruct H as [-> H]. apply next_event_shape in Hn; [|discriminate].
    destruct (p_health (set_attrs None s)); try (destruct Hn as [_ [=]]).
    destruct Hn as (_ & r1 & s2 & Hpath & Hn). destruct e as [name| |f]; cbn [node_starts].
    + destruct Hn as (-> & -> & n & rest & Es & <-). apply impl_start_pos in Hpath.
      destruct Hpath as (n' & rest' & Es' & Em & Ep). rewrite Es' in Es. injection Es as -> ->.
      destruct H as (n2 & rest2 & _ & ->). cbn [p_stack set_attrs set_last] in *. rewrite Es'. cbn [map]. f_equal; [|exact Em].
      change (p_ver (set_attrs None s)) with (p_ver s) in Ep.
      assert (X : rpos (set_attrs (Some (mkAttrs (sn_attrs n2) (sn_attrs n2) (rpos (set_last (Some KStart) s2)))) (set_last (Some KStart) s2)) = rpos s2) by reflexivity.
      rewrite X, Ep. lia.
    + destruct Hn as (-> & ->). subst s'. apply impl_path_shape in Hpath. destruct Hpath as (n & rest & s3 & Es & Q & Q2).
      destruct Q as [(_ & _ & E & _) _]. destruct Q2 as [(_ & _ & E2 & _) _]. cbn [p_stack set_last]. rewrite E2.
      unfold pop. cbn [p_stack set_stack]. rewrite E. cbn [p_stack set_attrs] in *. rewrite Es. reflexivity.
    + destruct Hn as (-> & Hn). subst s'. apply impl_path_shape in Hpath. destruct Hpath as (Es & Q).
      assert (Q4 : quieta (set_last (Some KEndFbx) (set_health Finished s2)) s1).
      { eapply steps_elim; [apply read_footer_quiet|exact Hn|destruct f; discriminate]. }
      destruct Q as [(_ & _ & E & _) _]. destruct Q4 as [(_ & _ & F & _) _]. cbn [p_stack set_last set_health set_attrs] in *.
      rewrite F, E. reflexivity.
  - assert (E : p_stack s' = p_stack s).
    { destruct (p_attrs s) as [a|]; [|destruct H as [_ ->]; reflexivity].
      destruct H as (r0 & Hl & H). assert (r0 <> Panic) by (intros ->; exact H). apply load_next_ctl in Hl; [|auto]. apply Hl. }
    cbn [node_starts]. rewrite E. reflexivity.
  - assert (E : p_stack s' = p_stack s).
    { destruct (p_attrs s) as [a|]; [|destruct H as [_ ->]; reflexivity].
      destruct H as (r0 & Hl & H). assert (r0 <> Panic) by (intros ->; exact H). apply load_next_ctl in Hl; [|auto]. apply Hl. }
    cbn [node_starts]. rewrite E. reflexivity.
  - destruct H as (r0 & Hs & H). assert (Hr0 : r0 <> Panic) by (intros ->; exact H).
    apply skip_shape in Hs; [|exact Hr0]. destruct Hs as (n & rest & Es & Hm).
    apply m_skip_to_quieta in Hm; [|exact Hr0]. destruct Hm as [(_ & _ & E & _) _].
    cbn [node_starts]. rewrite E. unfold pop. cbn [p_stack set_last set_stack set_attrs] in *. rewrite Es. reflexivity.
Qed.

Lemma node_starts_cons : forall O ver st (x : call O * N) h,
  node_starts ver st (x :: h) = node_starts ver (node_starts ver st [x]) h.
Proof.
  intros O ver st [[o r] q] h. destruct o as [|l|l|]; cbn; try reflexivity.
  destruct r as [[ev|v| |]|e|]; try reflexivity. destruct ev; reflexivity.
Qed.

Lemma starts_run : forall O (l : list (op O)) t s rs s', tracked t s ->
  run_ops l s = (rs, s') -> no_panic rs -> existsb failed_next (combine l rs) = false ->
  map sn_start (p_stack s') =
    node_starts (p_ver s) (map sn_start (p_stack s)) (combine (combine l rs) (positions_after l s)).
Proof.
  intros O l. induction l as [|o l IH]; intros t s rs s' Ht H Hn Hf.
  - cbn in H. injection H as <- <-. reflexivity.
  - apply run_ops_cons_inv in H; [|exact Hn]. destruct H as (r & s1 & rs' & E1 & Hr & E2 & -> & Hn').
    cbn [combine existsb] in Hf. apply orb_false_iff in Hf. destruct Hf as [Hf1 Hf2].
    destruct (tracked_step _ _ _ _ _ _ Ht E1 Hr Hf1) as (t1 & Et1 & Ht1).
    cbn [combine positions_after]. rewrite E1. destruct (tracked_position _ _ Ht1) as (_ & pos & Ep & _ & Eb). rewrite Ep, Eb.
    cbn [combine]. rewrite node_starts_cons.
    transitivity (node_starts (p_ver s) (map sn_start (p_stack s1)) (combine (combine l rs') (positions_after l s1))).
    + rewrite (IH _ _ _ _ Ht1 E2 Hn' Hf2). f_equal.
      assert (F : fwd s s1) by (eapply steps_elim; [apply run_op_fwd|exact E1|exact Hr]). apply F.
    + f_equal. exact (starts_step _ _ _ _ _ _ Ht E1 Hr Hf1).
Qed.

(** The component position of [position()] is where the innermost open node begins, 0 if no
    node is open. *)
Theorem C50_component_position :
  forall O data sched seeks seekable h p (l : list (op O)) rs p',
    opened data sched seeks seekable h p -> run_ops l p = (rs, p') -> no_panic rs ->
    existsb failed_next (combine l rs) = false ->
    exists pos, position_of p' = Some pos /\ attribute_index pos = None /\
      component_byte_pos pos =
        hd 0%N (node_starts (p_ver p) [] (combine (combine l rs) (positions_after l p))).
Proof.
  intros O data sched seeks seekable h p l rs p' Ho H Hn Hf.
  pose proof (opened_tracked _ _ _ _ _ _ Ho) as Ht.
  destruct (tracked_run _ _ _ _ _ _ Ht H Hn Hf) as (t & Et & Ht').
  destruct (tracked_position _ _ Ht') as (_ & pos & E1 & _). exists pos. split; [exact E1|].
  split; [apply position_of_path in E1; apply E1|].
  rewrite (position_of_comp _ _ E1). unfold cp_of. rewrite (starts_run _ _ _ _ _ _ Ht H Hn Hf).
  apply opened_init in Ho. destruct Ho as (_ & -> & _). reflexivity.
Qed.

(** ** C50: error positions *)
(** The error is about the operation itself, not a refusal of a parser that already failed or
    already finished. *)
Definition first_error (e : perr) : Prop :=
  e_error e <> EOperation AlreadyAborted /\ e_error e <> EOperation AlreadyFinished.

Lemma tracked_path : forall t s, tracked t s -> path_of s = tk_path t.
Proof.
  intros t s Ht. destruct (tracked_position _ _ Ht) as (_ & p & E & A & _). apply position_of_path in E. destruct E as (_ & _ & E). congruence.
Qed.

(** A failing [next_event] carries the position [position()] reports from then on; the node
    path in it is that of the open nodes, or of all but the innermost. *)
Theorem C50_event_error_position :
  forall O data sched seeks seekable h p (l : list (op O)) rs p1 t e p2,
    opened data sched seeks seekable h p -> run_ops l p = (rs, p1) -> no_panic rs ->
    existsb failed_next (combine l rs) = false -> tk_run tk_init (combine l rs) = Some t ->
    run_op (@ONext O) p1 = (Err e, p2) -> first_error e ->
    exists pos, e_position e = Some pos /\ position_of p2 = Some pos /\ attribute_index pos = None /\
      let st := node_starts (p_ver p) [] (combine (combine l rs) (positions_after l p)) in
      (node_path pos = tk_path t /\ component_byte_pos pos = hd 0%N st \/
       tk_open t <> [] /\ node_path pos = parent_path (tk_path t) /\ component_byte_pos pos = hd 0%N (tl st)).
Proof.
  intros O data sched seeks seekable h p l rs p1 t e p2 Ho H Hn Hf Ht He [F1 F2].
  pose proof (opened_tracked _ _ _ _ _ _ Ho) as Ht0.
  destruct (tracked_run _ _ _ _ _ _ Ht0 H Hn Hf) as (t' & Et & Ht'). rewrite Ht in Et. injection Et as <-.
  pose proof (starts_run _ _ _ _ _ _ Ht0 H Hn Hf) as Hs.
  apply opened_init in Ho. destruct Ho as (_ & Es & _). rewrite Es in Hs. cbn [map] in Hs.
  apply run_op_shape in He; [|discriminate]. destruct He as (r0 & s1 & Hne & He).
  destruct r0 as [v|e0|]; [destruct He as [[=] _]| |tauto]. destruct He as [[= <-] ->].
  apply next_event_shape in Hne; [|discriminate]. cbn [p_health set_attrs] in Hne.
  destruct (p_health p1); [|destruct Hne as [_ [= ->]]; cbn in F2; congruence|destruct Hne as [_ [= ->]]; cbn in F1; congruence].
  destruct Hne as (_ & r0 & s2 & Hp & e1 & q & -> & Eq & -> & ->). exists q. split; [reflexivity|]. split; [exact Eq|].
  split; [apply position_of_path in Eq; apply Eq|]. cbv zeta. rewrite <- Hs. apply impl_path_shape in Hp.
  pose proof (position_of_path _ _ Eq) as (_ & _ & E3). apply position_of_comp in Eq. rewrite E3, Eq.
  rewrite <- (tracked_path _ _ Ht'). destruct Hp as [Q|(n & rest & s3 & E1 & Q1 & Q2)].
  - left. destruct Q as [Q _]. rewrite (quiet_path _ _ Q). split; [reflexivity|]. unfold cp_of. destruct Q as (_ & _ & -> & _). reflexivity.
  - right. split; [|split].
    + destruct Ht' as (_ & _ & C). intros Z. cbn [p_stack set_attrs] in E1. rewrite E1, Z in C. apply agree_length in C.
      rewrite !rev_length in C. discriminate.
    + destruct Q2 as [Q2 _]. rewrite (quiet_path _ _ Q2), pop_path. destruct Q1 as [Q1 _]. rewrite (quiet_path _ _ Q1). reflexivity.
    + unfold cp_of. destruct Q2 as [(_ & _ & -> & _) _]. unfold pop. cbn [p_stack set_stack]. destruct Q1 as [(_ & _ & -> & _) _].
      cbn [p_stack set_attrs]. destruct (p_stack p1); reflexivity.
Qed.

(** The number of attributes taken, on a running parser. *)
Definition taken (k : N) (s : pstate) : Prop :=
  p_health s = Running -> forall a, p_attrs s = Some a ->
    (a_rest a <= a_total a)%N /\ (a_total a - a_rest a)%N = k /\ (k = 0%N -> a_next a = rpos s).

Lemma taken_step : forall O (o : op O) k s r s', taken k s -> run_op o s = (r, s') -> r <> Panic ->
  taken (attributes_taken k [(o, r)]) s'.
Proof.
  intros O o k s r s' Hk H Hp. pose proof H as H0. apply run_op_shape in H; [|exact Hp].
  assert (LD : forall b (ld : loader O) r0, p_attrs s <> None -> load_next_gen b ld s = (r0, s') ->
     match r0 with Ok v => r = Ok (BAttr v) | Err e => r = Err e | Panic => False end ->
     taken (match r with Ok (BAttr (Some _)) => (k + 1)%N | _ => k end) s').
  { intros b ld r0 Na Hl Hr. assert (Hr0 : r0 <> Panic) by (intros ->; exact Hr). apply load_next_shape in Hl; [|exact Hr0].
    destruct (p_health s) eqn:Eh.
    2,3: destruct Hl as [-> ->]; rewrite Hr; intros F; congruence.
    destruct Hl as (a & Ea & r1 & s1 & Eb & Hr1 & Hl). destruct (Hk Eh a Ea) as (K1 & K2 & K3).
    destruct r0 as [v|e|]; [| |tauto].
    2:{ destruct Hl as (e0 & p0 & _ & _ & -> & _). intros F. discriminate. }
    destruct Hl as [-> ->]. rewrite Hr. intros Fh a' Ea'. apply (load_body_counts _ _ _ _ _ _ _ _ _ Ea) in Eb.
    destruct v as [v|].
    - destruct Eb as (B1 & a0 & C1 & C2 & C3). rewrite Ea' in C1. injection C1 as <-. rewrite C2. lia.
    - destruct Eb as (B1 & ->). rewrite Ea in Ea'. injection Ea' as <-. auto. }
  destruct o as [|ld|ld|]; cbn [op_shape attributes_taken] in *.
  - destruct H as (r0 & s1 & Hn & H). destruct r0 as [e|e|]; [| |tauto].
    + destruct H as [-> H]. destruct e as [name| |f].
      * destruct H as (n & rest & Es & ->). intros _ a [= <-]. cbn [a_rest a_total a_next]. repeat split; try lia.
      * subst s'. apply next_event_shape in Hn; [|discriminate]. destruct (p_health (set_attrs None s)); try (destruct Hn as [_ [=]]).
        destruct Hn as (_ & r1 & s2 & Hpath & -> & ->). apply impl_path_shape in Hpath. destruct Hpath as (n & rest & s3 & Es & [_ Q] & [_ Q2]).
        intros _ a Ea. cbn [p_attrs set_last] in Ea. rewrite Q2 in Ea. unfold pop in Ea. cbn [p_attrs set_stack] in Ea. rewrite Q in Ea. discriminate.
      * subst s'. apply next_event_shape in Hn; [|discriminate]. destruct (p_health (set_attrs None s)); try (destruct Hn as [_ [=]]).
        destruct Hn as (_ & r1 & s2 & Hpath & -> & Hf). apply impl_path_shape in Hpath. destruct Hpath as (_ & [_ Q]).
        assert (Q4 : quieta (set_last (Some KEndFbx) (set_health Finished s2)) s1).
        { eapply steps_elim; [apply read_footer_quiet|exact Hf|destruct f; discriminate]. }
        intros _ a Ea. destruct Q4 as [_ Q4]. rewrite Q4 in Ea. cbn [p_attrs set_last set_health] in Ea. rewrite Q in Ea. discriminate.
    + destruct H as [-> ->]. apply next_event_shape in Hn; [|discriminate]. intros Fh. exfalso.
      cbn [p_health set_attrs] in Hn. destruct (p_health s) eqn:Eh.
      * destruct Hn as (_ & r1 & s2 & _ & e0 & q & _ & _ & -> & _). discriminate.
      * destruct Hn as [-> _]. cbn in Fh. congruence.
      * destruct Hn as [-> _]. cbn in Fh. congruence.
  - destruct (p_attrs s) as [a|] eqn:Ea.
    + destruct H as (r0 & Hl & Hr). assert (X := LD _ _ _ ltac:(discriminate) Hl Hr).
      destruct r as [[ev|[v|]| |]|e|]; exact X.
    + destruct H as [-> ->]. intros _ a E. congruence.
  - destruct (p_attrs s) as [a|] eqn:Ea.
    + destruct H as (r0 & Hl & Hr). assert (X := LD _ _ _ ltac:(discriminate) Hl Hr).
      destruct r as [[ev|[v|]| |]|e|]; exact X.
    + destruct H as [-> ->]. intros _ a E. congruence.
  - destruct H as (r0 & Hs & H). assert (Hr0 : r0 <> Panic) by (intros ->; exact H).
    apply skip_shape in Hs; [|exact Hr0]. destruct Hs as (n & rest & Es & Hm).
    apply m_skip_to_quieta in Hm; [|exact Hr0]. destruct Hm as [_ E]. intros _ a Ea. rewrite E in Ea. discriminate.
Qed.

Lemma attributes_taken_cons : forall O k (c : call O) h, attributes_taken k (c :: h) = attributes_taken (attributes_taken k [c]) h.
Proof.
  intros O k [o r] h. destruct o as [|l|l|]; cbn; try reflexivity; destruct r as [[ev|[v|]| |]|e|]; reflexivity.
Qed.
Lemma taken_run : forall O (l : list (op O)) k s rs s', taken k s -> run_ops l s = (rs, s') -> no_panic rs ->
  taken (attributes_taken k (combine l rs)) s'.
Proof.
  intros O l. induction l as [|o l IH]; intros k s rs s' Hk H Hn.
  - cbn in H. injection H as <- <-. exact Hk.
  - apply run_ops_cons_inv in H; [|exact Hn]. destruct H as (r & s1 & rs' & E1 & Hr & E2 & -> & Hn').
    cbn [combine]. rewrite attributes_taken_cons. eapply IH; [|exact E2|exact Hn']. eapply taken_step; eauto.
Qed.
Lemma opened_taken : forall data sched seeks seekable h p k, opened data sched seeks seekable h p -> taken k p.
Proof.
  intros data sched seeks seekable h p k H. apply opened_init in H. destruct H as (_ & _ & _ & _ & _ & _ & E & _).
  intros _ a Ea. congruence.
Qed.

(** A load, seen through [load_next_gen]. *)
Lemma load_op_inv : forall O (o : op O) s r s', is_load o = true -> run_op o s = (r, s') -> r <> Panic ->
  (p_attrs s = None /\ r = Ok BIgnored /\ s' = s) \/
  exists b ld r0, load_next_gen b ld s = (r0, s') /\ p_attrs s <> None /\
    match r0 with Ok v => r = Ok (@BAttr O v) | Err e => r = Err e | Panic => False end.
Proof.
  intros O o s r s' Hl H Hp. apply run_op_shape in H; [|exact Hp].
  destruct o as [|l|l|]; try discriminate; cbn [op_shape] in H; (destruct (p_attrs s) as [a|]; [right|left; destruct H; auto]);
    destruct H as (r0 & A & B); do 3 eexists; split; eauto; split; [discriminate|exact B | discriminate | exact B].
Qed.

(** A failing load carries the index of the attribute, the path of the open nodes and the
    byte position [position()] reports from then on; for the first attribute of a node its
    component position is the position before the load, that is right after [StartNode]. *)
Theorem C50_load_error_position :
  forall O data sched seeks seekable h p (l : list (op O)) rs p1 t (o : op O) e p2,
    opened data sched seeks seekable h p -> run_ops l p = (rs, p1) -> no_panic rs ->
    existsb failed_next (combine l rs) = false -> tk_run tk_init (combine l rs) = Some t ->
    is_load o = true -> run_op o p1 = (Err e, p2) -> first_error e ->
    let k := attributes_taken 0 (combine l rs) in
    exists pos before after,
      e_position e = Some pos /\ position_of p1 = Some before /\ position_of p2 = Some after /\
      byte_pos pos = byte_pos after /\ node_path pos = tk_path t /\ node_path after = tk_path t /\
      attribute_index pos = Some k /\
      (k = 0%N -> component_byte_pos pos = byte_pos before).
Proof.
  intros O data sched seeks seekable h p l rs p1 t o e p2 Ho H Hn Hf Ht Hl He [F1 F2] k.
  pose proof (opened_tracked _ _ _ _ _ _ Ho) as Ht0.
  destruct (tracked_run _ _ _ _ _ _ Ht0 H Hn Hf) as (t' & Et & Ht'). rewrite Ht in Et. injection Et as <-.
  pose proof (taken_run _ _ 0 _ _ _ (opened_taken _ _ _ _ _ _ 0%N Ho) H Hn) as Hk. fold k in Hk.
  pose proof He as He'.
  apply load_op_inv in He; [|exact Hl|discriminate]. destruct He as [(_ & [=] & _)|(b & ld & r0 & He & Na & Hr)].
  destruct r0 as [v|e0|]; [discriminate| |tauto]. injection Hr as <-.
  assert (Ht2 : tracked t p2).
  { destruct (tracked_step _ o _ _ _ _ Ht' He' ltac:(discriminate)) as (t2 & Et2 & X); [destruct o; auto; discriminate|].
    destruct o; try discriminate; cbn in Et2; injection Et2 as <-; exact X. }
  destruct (tracked_position _ _ Ht') as (_ & q1 & A1 & A2 & A3). destruct (tracked_position _ _ Ht2) as (_ & q2 & B1 & B2 & B3).
  apply load_next_shape in He; [|discriminate].
  destruct (p_health p1) eqn:Eh; [|destruct He as [_ [= ->]]; cbn in F2; congruence|destruct He as [_ [= ->]]; cbn in F1; congruence].
  destruct He as (a & Ea & r1 & s1 & _ & _ & e1 & p0 & -> & Ep0 & Es & ->). cbv zeta in Es.
  destruct (Hk Eh a Ea) as (K1 & K2 & K3).
  eexists. exists q1, q2. split; [reflexivity|]. split; [exact A1|]. split; [exact B1|]. cbn [byte_pos node_path attribute_index component_byte_pos].
  assert (E0 : position_of p2 = Some p0) by (rewrite Es; exact Ep0). rewrite B1 in E0. injection E0 as <-.
  split; [reflexivity|]. split; [exact B2|]. split; [exact B2|]. split; [congruence|].
  intros Z. rewrite A3. apply K3. exact Z.
Qed.

(** ** C51: warning positions *)
Lemma ord_last : forall s l h2, ord s (set_last l (set_health h2 s)).
Proof. intros. exists []. split; [reflexivity|apply N.le_refl]. Qed.

Lemma raises_ord : forall P s s', raises P s s' -> ord s s'.
Proof. intros P s s' (l & A & B & _). exists l. auto. Qed.

Lemma next_warns : forall O s r s' t, tracked t s -> run_op (@ONext O) s = (r, s') -> r <> Panic ->
  exists ws, p_log s' = ws ++ p_log s /\ desc (rpos s') (rpos s) ws /\
    Forall (event_warning (p_ver s) t (map sn_start (p_stack s)) r) ws.
Proof.
  intros O s r s' t Ht H Hp. apply run_op_shape in H; [|exact Hp]. cbn [op_shape] in H. destruct H as (r0 & s1 & Hn & H).
  assert (NW : forall a b, p_log b = p_log a -> rpos b = rpos a ->
    exists ws, p_log b = ws ++ p_log a /\ desc (rpos b) (rpos a) ws /\ Forall (event_warning (p_ver s) t (map sn_start (p_stack s)) r) ws).
  { intros a b A B. exists []. split; [exact A|]. split; [cbn; lia|constructor]. }
  assert (Hr0 : r0 <> Panic) by (intros ->; exact H). apply next_event_shape in Hn; [|exact Hr0].
  cbn [p_health set_attrs] in Hn. destruct (p_health s) eqn:Eh.
  2,3: destruct Hn as [-> ->]; destruct H as [-> ->]; apply NW; reflexivity.
  destruct Hn as (_ & r1 & s2 & Hpath & Hn). pose proof (impl_warns _ _ _ Hpath) as W.
  pose proof (impl_path_shape _ _ _ Hpath) as Hsh.
  assert (Ht0 : tracked t (set_attrs None s)) by exact Ht.
  assert (TS : tk_path (tk_start [] t) = path_of s ++ [(next_index s, [])]).
  { pose proof (tracked_start t s (mkStarted 0 0 0 0 [] 0) Ht eq_refl) as X. cbn [sn_name] in X.
    apply tracked_path in X. rewrite push_path in X. symmetry. exact X. }
  assert (TP : tk_path t = path_of s) by (symmetry; apply tracked_path; exact Ht).
  assert (TO : p_stack s <> [] -> tk_open t <> []).
  { intros A B. destruct Ht as (_ & _ & C). rewrite B in C. apply agree_length in C. rewrite !rev_length in C.
    destruct (p_stack s); [congruence|discriminate]. }
  assert (TN : p_stack s = [] -> tk_open t = []).
  { intros A. destruct Ht as (_ & _ & C). rewrite A in C. apply agree_length in C. rewrite !rev_length in C.
    destruct (tk_open t); [reflexivity|discriminate]. }
  (* from a warning of the implementation to one of the specification *)
  assert (CV : (match r1 with
                | Ok KStart => exists name, r = Ok (BEvent (EvStart name)) /\ forall n rest, p_stack s2 = n :: rest -> name = sn_name n
                | Ok KEnd => r = Ok (BEvent EvEnd) | Err _ => exists e, r = Err e | _ => True end) ->
     forall w, impl_warning (set_attrs None s) r1 s2 w -> event_warning (p_ver s) t (map sn_start (p_stack s)) r w).
  { intros HR [w q] [I1 I2]. split; [exact I1|]. cbn [fst snd] in *.
    change (path_of (set_attrs None s)) with (path_of s) in I2. change (next_index (set_attrs None s)) with (next_index s) in I2.
    change (p_ver (set_attrs None s)) with (p_ver s) in I2. change (cp_of (set_attrs None s)) with (cp_of s) in I2.
    change (cp_of (pop (set_attrs None s))) with (cp_of (pop s)) in I2. change (p_stack (set_attrs None s)) with (p_stack s) in I2.
    destruct w; try contradiction; destruct I2 as (J1 & J2 & J3).
    - split; [congruence|]. split; [exact J2|]. destruct r1 as [[| |]|e|]; try contradiction.
      + destruct HR as (name & -> & HR). destruct J3 as (n & rest & Z1 & Z2). rewrite (HR _ _ Z1). exact Z2.
      + destruct HR as (e' & ->). exact I.
    - split; [unfold parent_path; congruence|]. split.
      + rewrite J2. unfold cp_of, pop. cbn [p_stack set_stack]. destruct (p_stack s); reflexivity.
      + destruct r1 as [[| |]|e|]; try contradiction; [rewrite HR; auto|destruct HR as (e' & ->); auto].
    - split; [congruence|]. split; [exact J2|].
      destruct r1 as [[| |]|e|]; try contradiction; [rewrite HR; auto|destruct HR as (e' & ->); auto]. }
  destruct W as (ws & W1 & W2 & _ & W3). change (p_log (set_attrs None s)) with (p_log s) in W1.
  change (rpos (set_attrs None s)) with (rpos s) in W2.
  assert (FIN : forall sx, p_log sx = p_log s2 -> rpos sx = rpos s2 ->
     Forall (event_warning (p_ver s) t (map sn_start (p_stack s)) r) ws ->
     exists ws, p_log sx = ws ++ p_log s /\ desc (rpos sx) (rpos s) ws /\ Forall (event_warning (p_ver s) t (map sn_start (p_stack s)) r) ws).
  { intros sx A B C. exists ws. rewrite A, B. auto. }
  assert (FA : (match r1 with
                | Ok KStart => exists name, r = Ok (BEvent (EvStart name)) /\ forall n rest, p_stack s2 = n :: rest -> name = sn_name n
                | Ok KEnd => r = Ok (BEvent EvEnd) | Err _ => exists e, r = Err e | _ => True end) ->
     Forall (event_warning (p_ver s) t (map sn_start (p_stack s)) r) ws).
  { intros HR. eapply Forall_impl; [|exact W3]. apply CV. exact HR. }
  destruct r0 as [ev|e|]; [| |tauto].
  - destruct H as [-> H]. destruct ev as [name| |f].
    + destruct Hn as (-> & -> & n & rest & Es & <-). destruct H as (n2 & rest2 & Es2 & ->).
      apply FIN; [reflexivity|reflexivity|]. apply FA. exists (sn_name n). split; [reflexivity|].
      intros n' rest' E'. rewrite Es in E'. injection E' as <- _. reflexivity.
    + destruct Hn as (-> & ->). subst s'. apply FIN; [reflexivity|reflexivity|]. apply FA. reflexivity.
    + destruct Hn as (-> & Hf). subst s'. destruct Hsh as (Es & _). cbn [p_stack set_attrs] in Es.
      destruct (footer_warns _ _ _ Hf) as (wf & V1 & V2 & V3); [destruct f; discriminate|].
      exists (wf ++ ws). change (p_log (set_last (Some KEndFbx) (set_health Finished s2))) with (p_log s2) in V1.
      change (rpos (set_last (Some KEndFbx) (set_health Finished s2))) with (rpos s2) in V2.
      split; [rewrite V1, W1, app_assoc; reflexivity|]. split; [eapply desc_app; eauto|].
      apply Forall_app. split; [|apply FA; exact I].
      eapply Forall_impl; [|exact V3]. intros [w q] (Y1 & Y2 & Y3). split; [exact Y1|]. cbn [fst snd] in *.
      destruct w; try contradiction; auto.
  - destruct H as [-> ->]. destruct Hn as (e0 & q & -> & Eq & -> & ->). apply FIN; [reflexivity|reflexivity|].
    apply FA. eauto.
Qed.

Lemma load_warns : forall O (o : op O) s r s', is_load o = true -> run_op o s = (r, s') -> r <> Panic ->
  exists ws, p_log s' = ws ++ p_log s /\ desc (rpos s') (rpos s) ws /\
    Forall (fun w => p_health s = Running /\ exists a, p_attrs s = Some a /\ boolw (a_next a) (a_total a - a_rest a) (path_of s) w) ws.
Proof.
  intros O o s r s' Hl H Hp. apply load_op_inv in H; [|exact Hl|exact Hp].
  assert (N : exists ws, p_log s = ws ++ p_log s /\ desc (rpos s) (rpos s) ws /\
    Forall (fun w => p_health s = Running /\ exists a, p_attrs s = Some a /\ boolw (a_next a) (a_total a - a_rest a) (path_of s) w) ws).
  { exists []. split; [reflexivity|]. split; [cbn; lia|constructor]. }
  destruct H as [(_ & _ & ->)|(b & ld & r0 & H & Na & Hr)]; [exact N|].
  assert (Hr0 : r0 <> Panic) by (intros ->; exact Hr). apply load_next_shape in H; [|exact Hr0].
  destruct (p_health s) eqn:Eh; [|destruct H as [-> _]; exact N|destruct H as [-> _]; exact N].
  destruct H as (a & Ea & r1 & s1 & Eb & Hr1 & H).
  assert (L := steps_elim _ _ _ _ _ _ (load_body_lw _ _ _ _ _) Eb Hr1). destruct L as (_ & ws & L1 & L2 & L3).
  exists ws. assert (X : p_log s' = p_log s1 /\ rpos s' = rpos s1).
  { destruct r0 as [v|e|]; [destruct H as [_ ->]; auto| |tauto]. destruct H as (e0 & p0 & _ & _ & -> & _). auto. }
  destruct X as [X1 X2]. rewrite X1, X2. split; [exact L1|]. split; [exact L2|].
  eapply Forall_impl; [|exact L3]. intros w Hw. split; [reflexivity|]. eauto.
Qed.
Lemma skip_no_warns : forall O s r s', run_op (@OSkip O) s = (r, s') -> r <> Panic ->
  p_log s' = p_log s /\ (rpos s <= rpos s')%N.
Proof.
  intros O s r s' H Hp. apply run_op_shape in H; [|exact Hp]. cbn [op_shape] in H. destruct H as (r0 & Hs & H).
  assert (Hr0 : r0 <> Panic) by (intros ->; exact H).
  apply skip_shape in Hs; [|exact Hr0]. destruct Hs as (n & rest & Es & Hm).
  assert (S : silent (set_last (Some KEnd) (pop (set_attrs None s))) s').
  { eapply steps_elim; [apply m_skip_to_silent|exact Hm|exact Hr0]. }
  destruct S as [[Q _] E]. split; [exact E|]. apply quiet_rpos in Q. exact Q.
Qed.
Lemma failed_next_ord : forall O s r s', run_op (@ONext O) s = (r, s') -> r <> Panic -> ord s s'.
Proof.
  intros O s r s' H Hp. apply run_op_shape in H; [|exact Hp]. cbn [op_shape] in H. destruct H as (r0 & s1 & Hn & H).
  assert (Hr0 : r0 <> Panic) by (intros ->; exact H). apply next_event_shape in Hn; [|exact Hr0].
  cbn [p_health set_attrs] in Hn.
  assert (N : forall sx, p_log sx = p_log s -> rpos sx = rpos s -> ord s sx).
  { intros sx A B. exists []. split; [exact A|]. cbn. lia. }
  destruct (p_health s) eqn:Eh.
  2,3: destruct Hn as [-> ->]; destruct H as [-> ->]; apply N; reflexivity.
  destruct Hn as (_ & r1 & s2 & Hpath & Hn). pose proof (raises_ord _ _ _ (impl_warns _ _ _ Hpath)) as (ws & W1 & W2).
  change (p_log (set_attrs None s)) with (p_log s) in W1. change (rpos (set_attrs None s)) with (rpos s) in W2.
  assert (FIN : forall sx, p_log sx = p_log s2 -> rpos sx = rpos s2 -> ord s sx).
  { intros sx A B. exists ws. rewrite A, B. auto. }
  destruct r0 as [ev|e|]; [| |tauto].
  - destruct H as [-> H]. destruct ev as [name| |f].
    + destruct Hn as (-> & -> & _). destruct H as (n2 & rest2 & Es2 & ->). apply FIN; reflexivity.
    + destruct Hn as (-> & ->). subst s'. apply FIN; reflexivity.
    + destruct Hn as (-> & Hf). subst s'.
      destruct (footer_warns _ _ _ Hf) as (wf & V1 & V2 & V3); [destruct f; discriminate|].
      exists (wf ++ ws). change (p_log (set_last (Some KEndFbx) (set_health Finished s2))) with (p_log s2) in V1.
      change (rpos (set_last (Some KEndFbx) (set_health Finished s2))) with (rpos s2) in V2.
      split; [rewrite V1, W1, app_assoc; reflexivity|]. eapply desc_app; eauto.
  - destruct H as [-> ->]. destruct Hn as (e0 & q & -> & Eq & -> & ->). apply FIN; reflexivity.
Qed.
Lemma run_op_ord : forall O (o : op O) s r s', run_op o s = (r, s') -> r <> Panic -> ord s s'.
Proof.
  intros O o s r s' H Hp. destruct o as [|l|l|].
  - eapply failed_next_ord; eauto.
  - apply load_warns in H; [|reflexivity|exact Hp]. destruct H as (ws & A & B & _). exists ws. auto.
  - apply load_warns in H; [|reflexivity|exact Hp]. destruct H as (ws & A & B & _). exists ws. auto.
  - apply skip_no_warns in H; [|exact Hp]. exists []. exact H.
Qed.
Lemma run_ops_ord : forall O (l : list (op O)) s rs s', run_ops l s = (rs, s') -> no_panic rs -> ord s s'.
Proof.
  intros O l. induction l as [|o l IH]; intros s rs s' H Hn.
  - cbn in H. injection H as <- <-. apply ord_pre.
  - apply run_ops_cons_inv in H; [|exact Hn]. destruct H as (r & s1 & rs' & E1 & Hr & E2 & -> & Hn').
    eapply ord_pre; [eapply run_op_ord; eauto|eapply IH; eauto].
Qed.
Lemma sorted_snoc : forall l x, Sorted N.le l -> (forall y, last l 0%N = y -> l <> [] -> (y <= x)%N) -> Sorted N.le (l ++ [x]).
Proof.
  induction l as [|a l IH]; intros x S H; cbn.
  - repeat constructor.
  - inversion S; subst. constructor.
    + apply IH; [assumption|]. intros y Hy Hne. apply H; [|discriminate]. destruct l; [congruence|exact Hy].
    + destruct l as [|b l]; cbn; constructor; [|inversion H3; assumption].
      apply (H a eq_refl). discriminate.
Qed.
Lemma desc_order : forall l hi lo, desc hi lo l ->
  in_order (rev l) /\ Forall (fun w => lo <= warning_offset w /\ warning_offset w <= hi)%N (rev l).
Proof.
  induction l as [|w l IH]; intros hi lo H; [split; constructor|].
  destruct H as [A B]. destruct (IH _ _ B) as [C D]. cbn [rev]. split.
  - unfold in_order in *. rewrite map_app. apply sorted_snoc; [exact C|]. intros y Hy Hne.
    assert (In y (map warning_offset (rev l))).
    { subst y. rewrite (app_removelast_last 0%N Hne). apply in_or_app. right. left.
      rewrite <- (app_removelast_last 0%N Hne) at 1. reflexivity. }
    apply in_map_iff in H. destruct H as (x & <- & Hx). rewrite Forall_forall in D. apply D in Hx. cbn. lia.
  - apply Forall_app. split; [|constructor; [|constructor]].
    + eapply Forall_impl; [|exact D]. intros x Hx. cbv beta in *. lia.
    + pose proof (desc_le _ _ _ B). lia.
Qed.

(** The warnings of a parser come in the order of their offsets, none before the first byte
    after the file header and none after the parser's position. *)
Theorem C51_warnings_in_order :
  forall O data sched seeks seekable h p (l : list (op O)) rs p',
    opened data sched seeks seekable h p -> run_ops l p = (rs, p') -> no_panic rs ->
    in_order (rev (p_log p')) /\
    exists now, position_of p' = Some now /\
      Forall (fun w => 27 <= warning_offset w /\ warning_offset w <= byte_pos now)%N (rev (p_log p')).
Proof.
  intros O data sched seeks seekable h p l rs p' Ho H Hn.
  destruct (run_ops_ord _ _ _ _ _ H Hn) as (ws & A & B).
  destruct (topok_position p') as (pos & E1 & E2). { eapply run_ops_keeps; eauto. eapply opened_topok; eauto. }
  apply opened_init in Ho. destruct Ho as (_ & _ & _ & _ & _ & El & _ & Ep & _). rewrite El, app_nil_r in A. subst ws.
  apply desc_order in B. destruct B as [B C]. split; [exact B|]. exists pos. split; [exact E1|].
  eapply Forall_impl; [|exact C]. intros w [W1 W2]. unfold rpos in *. rewrite Ep in W1. lia.
Qed.

(** Every warning names its place: those of [next_event] as in [event_warning], those of a
    load the attribute being loaded; skipping a node raises none. *)
Theorem C51_warning_places :
  forall O data sched seeks seekable h p (l : list (op O)) rs p1 t (o : op O) r p2,
    opened data sched seeks seekable h p -> run_ops l p = (rs, p1) -> no_panic rs ->
    existsb failed_next (combine l rs) = false -> tk_run tk_init (combine l rs) = Some t ->
    run_op o p1 = (r, p2) -> r <> Panic ->
    let st := node_starts (p_ver p) [] (combine (combine l rs) (positions_after l p)) in
    let k := attributes_taken 0 (combine l rs) in
    exists new, p_log p2 = new ++ p_log p1 /\
      Forall (match o with
              | ONext => event_warning (p_ver p) t st r
              | OLoad _ | OLoadBuf _ => load_warning t k
              | OSkip => fun _ => False
              end) new.
Proof.
  intros O data sched seeks seekable h p l rs p1 t o r p2 Ho H Hn Hf Ht He Hr st k.
  pose proof (opened_tracked _ _ _ _ _ _ Ho) as Ht0.
  destruct (tracked_run _ _ _ _ _ _ Ht0 H Hn Hf) as (t' & Et & Ht'). rewrite Ht in Et. injection Et as <-.
  pose proof (starts_run _ _ _ _ _ _ Ht0 H Hn Hf) as Hs.
  pose proof (taken_run _ _ 0 _ _ _ (opened_taken _ _ _ _ _ _ 0%N Ho) H Hn) as Hk. fold k in Hk.
  apply opened_init in Ho. destruct Ho as (_ & Es & _). rewrite Es in Hs. cbn [map] in Hs. fold st in Hs.
  assert (Hv : p_ver p1 = p_ver p) by (apply run_ops_fwd in H; [apply H|exact Hn]).
  assert (LD : is_load o = true -> exists new, p_log p2 = new ++ p_log p1 /\ Forall (load_warning t k) new).
  { intros Hl. apply load_warns in He; [|exact Hl|exact Hr]. destruct He as (ws & A & _ & B). exists ws. split; [exact A|].
    eapply Forall_impl; [|exact B]. intros w (Eh & a & Ea & W1 & _ & W3 & W4). destruct (Hk Eh a Ea) as (_ & K2 & _).
    split; [exact W1|]. split; [congruence|]. rewrite W4. apply tracked_path. exact Ht'. }
  destruct o as [|ld|ld|]; [|apply LD; reflexivity|apply LD; reflexivity|].
  - destruct (next_warns _ _ _ _ _ Ht' He Hr) as (ws & A & _ & B). rewrite Hv, Hs in B. exists ws. auto.
  - apply skip_no_warns in He; [|exact Hr]. exists []. split; [apply He|constructor].
Qed.

(** ** C52: the current node and whether the parser was used *)
Theorem C52_current_node_name :
  forall O data sched seeks seekable h p (l : list (op O)) rs p',
    opened data sched seeks seekable h p -> run_ops l p = (rs, p') -> no_panic rs ->
    existsb failed_next (combine l rs) = false ->
    exists t, tk_run tk_init (combine l rs) = Some t /\
      current_node_name p' =
        (match tk_open t with [] => Panic | f :: _ => Ok (fr_name f) end, p').
Proof.
  intros O data sched seeks seekable h p l rs p' Ho H Hn Hf.
  destruct (tracked_run _ _ _ _ _ _ (opened_tracked _ _ _ _ _ _ Ho) H Hn Hf) as (t & Et & Ht).
  exists t. split; [exact Et|]. destruct Ht as (_ & _ & C). unfold current_node_name. rewrite bind_gets. unfold current_node.
  destruct (p_stack p') as [|n st]; destruct (tk_open t) as [|f fs]; try (apply agree_length in C; rewrite !rev_length in C; discriminate).
  - reflexivity.
  - cbn [rev] in C. apply agree_snoc in C. destruct C as (_ & C & _). cbn [hd_error]. rewrite C. reflexivity.
Qed.

Definition fresh (s : pstate) : Prop := p_last s = None /\ p_stack s = [].
Lemma fresh_step : forall O (o : op O) s r s', fresh s -> run_op o s = (r, s') -> r <> Panic ->
  if ok_next (o, r) then p_last s' <> None else fresh s'.
Proof.
  intros O o s r s' [F1 F2] H Hp.
  assert (LD : is_load o = true -> fresh s').
  { intros Hl. apply load_op_inv in H; [|exact Hl|exact Hp]. destruct H as [(_ & _ & ->)|(b & ld & r0 & H & _ & Hr)]; [split; assumption|].
    apply load_next_ctl in H; [|intros ->; exact Hr]. destruct H as (A & _ & B). split; congruence. }
  destruct o as [|ld|ld|]; [|apply LD; reflexivity|apply LD; reflexivity|].
  - apply run_op_shape in H; [|exact Hp]. cbn [op_shape] in H. destruct H as (r0 & s1 & Hn & H).
    assert (Hr0 : r0 <> Panic) by (intros ->; exact H). apply next_event_shape in Hn; [|exact Hr0].
    cbn [p_health set_attrs] in Hn. destruct (p_health s) eqn:Eh.
    2,3: destruct Hn as [-> ->]; destruct H as [-> ->]; split; assumption.
    destruct Hn as (_ & r1 & s2 & Hpath & Hn). apply impl_path_shape in Hpath. destruct r0 as [ev|e|]; [| |tauto].
    + destruct H as [-> H]. cbn [ok_next]. destruct ev as [name| |f].
      * destruct Hn as (-> & -> & _). destruct H as (n2 & rest2 & _ & ->). discriminate.
      * destruct Hn as (-> & ->). subst s'. discriminate.
      * destruct Hn as (-> & Hf). subst s'.
        assert (Q4 : quieta (set_last (Some KEndFbx) (set_health Finished s2)) s1).
        { eapply steps_elim; [apply read_footer_quiet|exact Hf|destruct f; discriminate]. }
        destruct Q4 as [(_ & _ & _ & E & _) _]. rewrite E. discriminate.
    + destruct H as [-> ->]. cbn [ok_next]. destruct Hn as (e0 & q & -> & _ & -> & _).
      destruct Hpath as [[(_ & _ & A & B & _) _]|(n & rest & s3 & E & _)]; [|cbn [p_stack set_attrs] in E; congruence].
      cbn [p_stack p_last set_attrs] in *. split; cbn [p_last p_stack set_health]; congruence.
  - exfalso. apply run_op_shape in H; [|exact Hp]. cbn [op_shape] in H. destruct H as (r0 & Hs & H).
    apply skip_shape in Hs; [|intros ->; exact H]. destruct Hs as (n & rest & Es & _). cbn [p_stack set_attrs] in Es. congruence.
Qed.
Lemma last_stays : forall O (o : op O) s r s', run_op o s = (r, s') -> r <> Panic -> p_last s <> None -> p_last s' <> None.
Proof.
  intros O o s r s' H Hp F.
  assert (LD : is_load o = true -> p_last s' <> None).
  { intros Hl. apply load_op_inv in H; [|exact Hl|exact Hp]. destruct H as [(_ & _ & ->)|(b & ld & r0 & H & _ & Hr)]; [assumption|].
    apply load_next_ctl in H; [|intros ->; exact Hr]. destruct H as (A & _ & B). congruence. }
  destruct o as [|ld|ld|]; [|apply LD; reflexivity|apply LD; reflexivity|].
  - apply run_op_shape in H; [|exact Hp]. cbn [op_shape] in H. destruct H as (r0 & s1 & Hn & H).
    assert (Hr0 : r0 <> Panic) by (intros ->; exact H). apply next_event_shape in Hn; [|exact Hr0].
    cbn [p_health set_attrs] in Hn. destruct (p_health s) eqn:Eh.
    2,3: destruct Hn as [-> ->]; destruct H as [-> ->]; assumption.
    destruct Hn as (_ & r1 & s2 & Hpath & Hn). apply impl_path_shape in Hpath. destruct r0 as [ev|e|]; [| |tauto].
    + destruct H as [-> H]. destruct ev as [name| |f].
      * destruct Hn as (-> & -> & _). destruct H as (n2 & rest2 & _ & ->). discriminate.
      * destruct Hn as (-> & ->). subst s'. discriminate.
      * destruct Hn as (-> & Hf). subst s'.
        assert (Q4 : quieta (set_last (Some KEndFbx) (set_health Finished s2)) s1).
        { eapply steps_elim; [apply read_footer_quiet|exact Hf|destruct f; discriminate]. }
        destruct Q4 as [(_ & _ & _ & E & _) _]. rewrite E. discriminate.
    + destruct H as [-> ->]. destruct Hn as (e0 & q & -> & _ & -> & _). cbn [p_last set_health].
      destruct Hpath as [[(_ & _ & A & B & _) _]|(n & rest & s3 & E & [(_ & _ & _ & A & _) _] & [(_ & _ & _ & B & _) _])].
      * rewrite B. exact F.
      * rewrite B. unfold pop. cbn [p_last set_stack]. rewrite A. exact F.
  - apply run_op_shape in H; [|exact Hp]. cbn [op_shape] in H. destruct H as (r0 & Hs & H).
    assert (Hr0 : r0 <> Panic) by (intros ->; exact H).
    apply skip_shape in Hs; [|exact Hr0]. destruct Hs as (n & rest & Es & Hm).
    apply m_skip_to_quieta in Hm; [|exact Hr0]. destruct Hm as [(_ & _ & _ & E & _) _]. rewrite E. discriminate.
Qed.

Lemma used_from : forall O (l : list (op O)) s rs s', p_last s <> None -> run_ops l s = (rs, s') -> no_panic rs -> p_last s' <> None.
Proof.
  intros O l. induction l as [|o l IH]; intros s rs s' F H Hn.
  - cbn in H. injection H as <- <-. exact F.
  - apply run_ops_cons_inv in H; [|exact Hn]. destruct H as (r & s1 & rs' & E1 & Hr & E2 & -> & Hn').
    eapply IH; [eapply last_stays; eauto|eauto|auto].
Qed.
Lemma fresh_run : forall O (l : list (op O)) s rs s', fresh s -> run_ops l s = (rs, s') -> no_panic rs ->
  if existsb ok_next (combine l rs) then p_last s' <> None else fresh s'.
Proof.
  intros O l. induction l as [|o l IH]; intros s rs s' F H Hn.
  - cbn in H. injection H as <- <-. exact F.
  - apply run_ops_cons_inv in H; [|exact Hn]. destruct H as (r & s1 & rs' & E1 & Hr & E2 & -> & Hn').
    pose proof (fresh_step _ _ _ _ _ F E1 Hr) as S. cbn [combine existsb]. destruct (ok_next (o, r)); cbn [orb].
    + eapply used_from; eauto.
    + eapply IH; eauto.
Qed.

(** [is_used] tells whether a [next_event] has succeeded. *)
Theorem C52_is_used :
  forall O data sched seeks seekable h p (l : list (op O)) rs p',
    opened data sched seeks seekable h p -> run_ops l p = (rs, p') -> no_panic rs ->
    is_used p' = existsb ok_next (combine l rs).
Proof.
  intros O data sched seeks seekable h p l rs p' Ho H Hn. apply opened_init in Ho. destruct Ho as (_ & E1 & E2 & _).
  pose proof (fresh_run _ _ _ _ _ (conj E2 E1) H Hn) as F. unfold is_used.
  destruct (existsb ok_next (combine l rs)); [destruct (p_last p'); congruence|]. destruct F as [-> _]. reflexivity.
Qed.
End WithEnv.
