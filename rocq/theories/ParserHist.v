(** Histories of calls on a parser. *)
Require Import Coq.Lists.List Coq.NArith.NArith Coq.ZArith.ZArith Coq.Bool.Bool Coq.micromega.Lia.
Require Import ZifyBool ZifyNat ZifyN.
Require Import Verif.Base Verif.BaseFacts Verif.Utf8 Verif.Types Verif.Io Verif.IoFacts Verif.Parser Verif.MonadFacts Verif.ParserSteps Verif.ParserShape Verif.SpecHist.
Import ListNotations.
Ltac Zify.zify_post_hook ::= Z.div_mod_to_equations.

Section WithEnv.
Context {env : Env}.

(** ** One call *)
Definition op_shape {O} (o : op O) (s : pstate) (r : res perr (obs O)) (s' : pstate) : Prop :=
  match o with
  | ONext => exists r0 s1, next_event (set_attrs None s) = (r0, s1) /\
      match r0 with
      | Ok e => r = Ok (BEvent e) /\
          match e with
          | EvStart _ => exists n rest, p_stack s1 = n :: rest /\
              s' = set_attrs (Some (mkAttrs (sn_attrs n) (sn_attrs n) (rpos s1))) s1
          | _ => s' = s1
          end
      | Err e => r = Err e /\ s' = s1
      | Panic => False
      end
  | OLoad l =>
      match p_attrs s with
      | None => r = Ok BIgnored /\ s' = s
      | Some _ => exists r0, load_next_gen false l s = (r0, s') /\
          match r0 with Ok v => r = Ok (BAttr v) | Err e => r = Err e | Panic => False end
      end
  | OLoadBuf l =>
      match p_attrs s with
      | None => r = Ok BIgnored /\ s' = s
      | Some _ => exists r0, load_next_gen true l s = (r0, s') /\
          match r0 with Ok v => r = Ok (BAttr v) | Err e => r = Err e | Panic => False end
      end
  | OSkip => exists r0, skip_current_node (set_attrs None s) = (r0, s') /\
      match r0 with Ok _ => r = Ok BSkipped | Err e => r = Err e | Panic => False end
  end.

Lemma run_op_shape : forall O (o : op O) s r s', run_op o s = (r, s') -> r <> Panic -> op_shape o s r s'.
Proof.
  intros O o s r s' H Hp. destruct o as [|l|l|]; cbn [run_op] in H; unfold op_shape.
  - rewrite bind_modify in H. mstep H as ev s1 E1; try congruence.
    + exists (Ok ev), s1. split; [exact E1|]. destruct ev as [name| |f].
      * mstep H as u s2 E2; try congruence.
        -- injection H as <- <-. split; [reflexivity|]. unfold from_parser in E2.
           rewrite bind_gets in E2. unfold current_node in E2. destruct (p_stack s1) as [|n rest]; [discriminate|].
           cbn [hd_error] in E2. unfold reader_pos in E2. rewrite bind_gets in E2. injection E2 as _ <-. eauto.
        -- exfalso. unfold from_parser in E2. rewrite bind_gets in E2.
           destruct (current_node s1); discriminate.
      * injection H as <- <-. auto.
      * injection H as <- <-. auto.
    + exists (Err e), s'. auto.
  - rewrite bind_gets in H. destruct (p_attrs s) as [a|].
    + mstep H as v s1 E1; try congruence.
      * injection H as <- <-. exists (Ok v). auto.
      * exists (Err e). auto.
    + injection H as <- <-. auto.
  - rewrite bind_gets in H. destruct (p_attrs s) as [a|].
    + mstep H as v s1 E1; try congruence.
      * injection H as <- <-. exists (Ok v). auto.
      * exists (Err e). auto.
    + injection H as <- <-. auto.
  - rewrite bind_modify in H. mstep H as v s1 E1; try congruence.
    + injection H as <- <-. exists (Ok v). auto.
    + exists (Err e). auto.
Qed.

(** ** Many calls *)
Lemma run_ops_app : forall O (l1 l2 : list (op O)) s,
  run_ops (l1 ++ l2) s =
  let '(rs1, s1) := run_ops l1 s in
  if existsb is_panic rs1 then (rs1, s1) else let '(rs2, s2) := run_ops l2 s1 in (rs1 ++ rs2, s2).
Proof.
  intros O l1. induction l1 as [|o l1 IH]; intros l2 s; cbn [run_ops app].
  - cbn. destruct (run_ops l2 s); reflexivity.
  - destruct (run_op o s) as [[v|e|] s1]; try reflexivity.
    + rewrite IH. destruct (run_ops l1 s1) as [rs1 s2]. cbn. destruct (existsb is_panic rs1); [reflexivity|].
      destruct (run_ops l2 s2); reflexivity.
    + rewrite IH. destruct (run_ops l1 s1) as [rs1 s2]. cbn. destruct (existsb is_panic rs1); [reflexivity|].
      destruct (run_ops l2 s2); reflexivity.
Qed.

Definition no_panic {O} (rs : list (res perr O)) : Prop := existsb is_panic rs = false.

Lemma run_ops_cons_inv : forall O (o : op O) l s rs s',
  run_ops (o :: l) s = (rs, s') -> no_panic rs ->
  exists r s1 rs', run_op o s = (r, s1) /\ r <> Panic /\ run_ops l s1 = (rs', s') /\ rs = r :: rs' /\ no_panic rs'.
Proof.
  intros O o l s rs s' H Hn. cbn [run_ops] in H. destruct (run_op o s) as [[v|e|] s1].
  - destruct (run_ops l s1) as [rs' s2] eqn:E. injection H as <- <-. unfold no_panic in *. cbn in Hn.
    exists (Ok v), s1, rs'. repeat split; auto; discriminate.
  - destruct (run_ops l s1) as [rs' s2] eqn:E. injection H as <- <-. unfold no_panic in *. cbn in Hn.
    exists (Err e), s1, rs'. repeat split; auto; discriminate.
  - injection H as <- <-. discriminate.
Qed.

(** ** Tracking *)
(** The parser's stack agrees with the tracker: same names, same child counts, and the index
    of every open node is what [path_from] will compute. *)
Fixpoint agree (idx : N) (st : list started) (fs : list frame) : Prop :=
  match st, fs with
  | [], [] => True
  | n :: st', f :: fs' =>
      fr_index f = idx /\ fr_name f = sn_name n /\ fr_children f = sn_kids n /\
      agree (sn_kids n - 1) st' fs'
  | _, _ => False
  end.

Lemma agree_path : forall st fs idx, agree idx st fs ->
  path_from idx st = map (fun f => (fr_index f, fr_name f)) fs.
Proof.
  induction st as [|n st IH]; intros [|f fs] idx H; cbn in *; try tauto.
  destruct H as (-> & -> & _ & H). rewrite (IH _ _ H). reflexivity.
Qed.
Lemma agree_length : forall st fs idx, agree idx st fs -> length st = length fs.
Proof.
  induction st as [|n st IH]; intros [|f fs] idx H; cbn in *; try tauto.
  destruct H as (_ & _ & _ & H). rewrite (IH _ _ H). reflexivity.
Qed.

(** Outermost-first lists, so that the innermost node is last. *)
Lemma agree_snoc : forall st fs idx n f, agree idx (st ++ [n]) (fs ++ [f]) ->
  agree idx st fs /\ fr_name f = sn_name n /\ fr_children f = sn_kids n.
Proof.
  induction st as [|m st IH]; intros [|g fs] idx n f H; cbn in H.
  - tauto.
  - destruct H as (_ & _ & _ & H). destruct fs; contradiction.
  - destruct H as (_ & _ & _ & H). destruct st; contradiction.
  - destruct H as (A & B & C & H). apply IH in H. cbn. tauto.
Qed.

Definition bump (n : started) : started :=
  mkStarted (sn_start n) (sn_end n) (sn_attrs n) (sn_attrs_end n) (sn_name n) (sn_kids n + 1)%N.
Definition fbump (f : frame) : frame := mkFrame (fr_index f) (fr_name f) (fr_children f + 1)%N.

Lemma agree_push : forall st fs idx n f c,
  agree idx (st ++ [n]) (fs ++ [f]) -> sn_kids c = 0%N ->
  agree idx (st ++ [bump n; c]) (fs ++ [fbump f; mkFrame (fr_children f) (sn_name c) 0]).
Proof.
  induction st as [|m st IH]; intros [|g fs] idx n f c H Hc; cbn in H.
  - cbn. destruct H as (A & B & C & _). rewrite A, B, C, Hc. repeat split; auto. lia.
  - destruct H as (_ & _ & _ & H). destruct fs; contradiction.
  - destruct H as (_ & _ & _ & H). destruct st; contradiction.
  - destruct H as (A & B & C & H). cbn [app agree]. repeat split; auto.
Qed.

Definition tracked (t : tracker) (s : pstate) : Prop :=
  tk_top t = p_top s /\ (p_stack s <> [] -> 1 <= p_top s)%N /\
  agree (p_top s - 1) (rev (p_stack s)) (rev (tk_open t)).

Lemma tracked_quiet : forall t s s', tracked t s -> quiet s s' -> tracked t s'.
Proof.
  intros t s s' (A & B & C) (_ & _ & E & _ & F & _). unfold tracked. rewrite E, F. auto.
Qed.

Lemma tracked_ext : forall t s s', tracked t s -> p_stack s' = p_stack s -> p_top s' = p_top s -> tracked t s'.
Proof. intros t s s' (A & B & C) E F. unfold tracked. rewrite E, F. auto. Qed.

Lemma agree_rev_nil : forall idx st fs, agree idx (rev st) (rev fs) -> (st = [] <-> fs = []).
Proof.
  intros idx st fs H. apply agree_length in H. rewrite !rev_length in H.
  destruct st, fs; try (split; discriminate || auto); cbn in H; discriminate.
Qed.

Lemma tracked_start : forall t s n, tracked t s -> sn_kids n = 0%N ->
  tracked (tk_start (sn_name n) t) (push n (count_child s)).
Proof.
  intros t s n (A & B & C) Hn. unfold tk_start.
  destruct (p_stack s) as [|m st] eqn:Es.
  - assert (tk_open t = []) by (apply (agree_rev_nil _ _ _ C); reflexivity).
    rewrite H. unfold tracked, count_child, push. rewrite Es. cbn. rewrite Es, A. cbn. rewrite Hn.
    repeat split; auto; lia.
  - destruct (tk_open t) as [|f fs] eqn:Et.
    { exfalso. apply agree_length in C. rewrite !rev_length in C. discriminate. }
    unfold tracked, count_child, push. rewrite Es. cbn [set_stack p_stack p_top tk_top tk_open].
    split; [exact A|]. split; [intros _; apply B; discriminate|].
    cbn [rev]. rewrite <- !app_assoc. cbn [app].
    apply (agree_push (rev st) (rev fs) _ m f n); auto.
Qed.

Lemma tracked_pop : forall t s n rest, tracked t s -> p_stack s = n :: rest ->
  exists f fs, tk_open t = f :: fs /\ tracked (mkTracker fs (tk_top t)) (pop s).
Proof.
  intros t s n rest (A & B & C) Es. rewrite Es in *.
  destruct (tk_open t) as [|f fs] eqn:Et.
  { exfalso. apply agree_length in C. rewrite !rev_length in C. discriminate. }
  exists f, fs. split; [reflexivity|]. unfold tracked, pop. cbn [set_stack p_stack p_top tk_top tk_open]. rewrite Es. cbn [tl].
  split; [exact A|]. split; [intros _; apply B; discriminate|].
  cbn [rev] in C. apply agree_snoc in C. tauto.
Qed.

Lemma quiet_of_quieta : forall s s', quieta s s' -> quiet s s'.
Proof. intros s s' H. apply H. Qed.

Lemma m_skip_to_quieta : forall n s r s', m_skip_to n s = (r, s') -> r <> Panic -> quieta s s'.
Proof. intros. eapply steps_elim; [apply m_skip_to_quiet | eauto | auto]. Qed.

Lemma load_body_quietl : forall O b (ld : loader O) x y s r s', load_body b ld x y s = (r, s') -> r <> Panic -> quietl s s'.
Proof. intros. eapply steps_elim; [apply load_body_quiet | eauto | auto]. Qed.

Lemma load_next_ctl : forall O b (ld : loader O) s r s', load_next_gen b ld s = (r, s') -> r <> Panic ->
  p_stack s' = p_stack s /\ p_top s' = p_top s /\ p_last s' = p_last s.
Proof.
  intros O b ld s r s' H Hp. apply load_next_shape in H; [|exact Hp].
  destruct (p_health s).
  - destruct H as (a & Ea & r0 & s1 & Eb & Hr0 & H).
    apply load_body_quietl in Eb; [|exact Hr0]. destruct Eb as [(_ & _ & E1 & E2 & E3 & _) _].
    destruct r as [v|e|]; [| |tauto].
    + destruct H as [_ ->]. auto.
    + destruct H as (e0 & p0 & _ & _ & -> & _). cbn. auto.
  - destruct H as [-> _]. auto.
  - destruct H as [-> _]. auto.
Qed.

Lemma tracked_step : forall O (o : op O) t s r s', tracked t s ->
  run_op o s = (r, s') -> r <> Panic -> failed_next (o, r) = false ->
  exists t', tk_step t (o, r) = Some t' /\ tracked t' s'.
Proof.
  intros O o t s r s' Ht H Hp Hf. apply run_op_shape in H; [|exact Hp]. destruct o as [|l|l|]; cbn [op_shape] in H.
  - destruct H as (r0 & s1 & Hn & H). destruct r0 as [e|e|]; [|destruct H; subst; discriminate|tauto].
    destruct H as [-> H].
    apply next_event_shape in Hn; [|discriminate].
    assert (Ht0 : tracked t (set_attrs None s)) by exact Ht.
    destruct (p_health (set_attrs None s)); try (destruct Hn as [_ [=]]).
    destruct Hn as (_ & r1 & s2 & Hpath & Hn). apply impl_path_shape in Hpath.
    destruct e as [name| |f].
    + destruct Hn as (-> & -> & n & rest & Es & <-). destruct Hpath as (n' & s3 & Q & -> & Hk).
      assert (n' = n) as -> by (cbn in Es; congruence).
      destruct H as (n2 & rest2 & _ & ->).
      cbn [tk_step]. eexists. split; [reflexivity|].
      eapply tracked_ext; [apply tracked_start; [eapply tracked_quiet; [exact Ht0 | apply Q] | exact Hk]|reflexivity|reflexivity].
    + destruct Hn as (-> & ->). subst s'. destruct Hpath as (n & rest & s3 & Es & Q & Q2).
      assert (Ht1 := tracked_quiet _ _ _ Ht0 (proj1 Q)).
      assert (Es3 : p_stack s3 = n :: rest) by (destruct Q as [(_ & _ & E & _) _]; congruence).
      destruct (tracked_pop _ _ _ _ Ht1 Es3) as (f & fs & Et & Ht2).
      cbn [tk_step]. rewrite Et. eexists. split; [reflexivity|].
      eapply tracked_ext; [eapply tracked_quiet; [exact Ht2 | apply Q2]|reflexivity|reflexivity].
    + destruct Hn as (-> & Hn). subst s'. destruct Hpath as (Es & Q).
      assert (Q3 := steps_elim _ _ _ _ _ _ read_footer_quiet Hn).
      assert (Q4 : quieta (set_last (Some KEndFbx) (set_health Finished s2)) s1) by (apply Q3; destruct f; discriminate).
      destruct Q as [(_ & _ & E & _ & E2 & _) _]. destruct Q4 as [(_ & _ & F & _ & F2 & _) _]. cbn in *.
      assert (tk_open t = []).
      { destruct Ht0 as (_ & _ & C). apply (agree_rev_nil _ _ _ C). exact Es. }
      rewrite H. eexists. split; [reflexivity|]. eapply tracked_ext; [exact Ht0| |]; cbn; congruence.
  - destruct (p_attrs s) as [a|].
    + destruct H as (r0 & Hl & H). destruct r0 as [v|e|]; [subst|subst|tauto]; cbn [tk_step];
        (eexists; split; [reflexivity|]);
        (apply load_next_ctl in Hl; [|discriminate]; destruct Hl as (A & B & _); eapply tracked_ext; eauto).
    + destruct H as [-> ->]. cbn. eauto.
  - destruct (p_attrs s) as [a|].
    + destruct H as (r0 & Hl & H). destruct r0 as [v|e|]; [subst|subst|tauto]; cbn [tk_step];
        (eexists; split; [reflexivity|]);
        (apply load_next_ctl in Hl; [|discriminate]; destruct Hl as (A & B & _); eapply tracked_ext; eauto).
    + destruct H as [-> ->]. cbn. eauto.
  - destruct H as (r0 & Hs & H). assert (Hr0 : r0 <> Panic) by (intros ->; exact H).
    apply skip_shape in Hs; [|exact Hr0]. destruct Hs as (n & rest & Es & Hm).
    apply m_skip_to_quieta in Hm; [|exact Hr0].
    assert (Ht0 : tracked t (set_attrs None s)) by exact Ht.
    destruct (tracked_pop _ _ _ _ Ht0 Es) as (f & fs & Et & Ht2).
    assert (Ht3 : tracked (mkTracker fs (tk_top t)) s').
    { eapply tracked_quiet; [|apply Hm]. exact Ht2. }
    destruct r0 as [v|e|]; [subst|subst|tauto]; cbn [tk_step]; rewrite Et; eauto.
Qed.

Lemma tracked_run : forall O (l : list (op O)) t s rs s', tracked t s ->
  run_ops l s = (rs, s') -> no_panic rs -> existsb failed_next (combine l rs) = false ->
  exists t', tk_run t (combine l rs) = Some t' /\ tracked t' s'.
Proof.
  intros O l. induction l as [|o l IH]; intros t s rs s' Ht H Hn Hf.
  - cbn in H. injection H as <- <-. cbn. eauto.
  - apply run_ops_cons_inv in H; [|exact Hn]. destruct H as (r & s1 & rs' & E1 & Hr & E2 & -> & Hn').
    cbn [combine existsb] in Hf. apply orb_false_iff in Hf. destruct Hf as [Hf1 Hf2].
    destruct (tracked_step _ _ _ _ _ _ Ht E1 Hr Hf1) as (t1 & Et1 & Ht1).
    destruct (IH _ _ _ _ Ht1 E2 Hn' Hf2) as (t2 & Et2 & Ht2).
    exists t2. cbn [combine tk_run]. rewrite Et1. auto.
Qed.

Lemma tracked_position : forall t s, tracked t s ->
  depth s = lenN (tk_open t) /\
  exists p, position_of s = Some p /\ node_path p = tk_path t /\ byte_pos p = rpos s.
Proof.
  intros t s (A & B & C). split.
  - unfold depth, lenN. pose proof (agree_length _ _ _ C) as L. rewrite !rev_length in L. congruence.
  - unfold position_of, tk_path. destruct (p_stack s) as [|n st] eqn:Es.
    + assert (Et : tk_open t = []) by (apply (agree_rev_nil _ _ _ C); reflexivity).
      rewrite Et. eexists. split; [reflexivity|]. auto.
    + assert (1 <= p_top s)%N by (apply B; discriminate).
      destruct (p_top s =? 0)%N eqn:E0; [apply N.eqb_eq in E0; lia|].
      eexists. split; [reflexivity|]. cbn [node_path byte_pos].
      rewrite <- (agree_path _ _ _ C). auto.
Qed.

(** ** Stickiness *)
Lemma aborted_run : forall O (l : list (op O)) s rs s' p, p_health s = Aborted p ->
  run_ops l s = (rs, s') -> no_panic rs ->
  p_health s' = Aborted p /\
  Forall (fun c => match c with
                   | (ONext, r) => r = Err (mkErr (EOperation AlreadyAborted) (Some p))
                   | (OLoad _, r) | (OLoadBuf _, r) =>
                       r = Err (mkErr (EOperation AlreadyAborted) (Some p)) \/ r = Ok BIgnored
                   | (OSkip, _) => True
                   end) (combine l rs) /\
  (forallb (fun o => negb (is_skip o)) l = true -> p_rd s' = p_rd s /\ p_log s' = p_log s /\ p_stack s' = p_stack s).
Proof.
  intros O l. induction l as [|o l IH]; intros s rs s' p Hh H Hn.
  - cbn in H. injection H as <- <-. repeat split; auto. constructor.
  - apply run_ops_cons_inv in H; [|exact Hn]. destruct H as (r & s1 & rs' & E1 & Hr & E2 & -> & Hn').
    assert (G : p_health s1 = Aborted p /\
      match o with
      | ONext => r = Err (mkErr (EOperation AlreadyAborted) (Some p))
      | OLoad _ | OLoadBuf _ => r = Err (mkErr (EOperation AlreadyAborted) (Some p)) \/ r = Ok BIgnored
      | OSkip => True
      end /\ (is_skip o = false -> p_rd s1 = p_rd s /\ p_log s1 = p_log s /\ p_stack s1 = p_stack s)).
    { apply run_op_shape in E1; [|exact Hr]. destruct o as [|ld|ld|]; cbn [op_shape] in E1.
      - destruct E1 as (r0 & s2 & Hne & E). assert (Hr0 : r0 <> Panic) by (intros ->; exact E).
        apply next_event_shape in Hne; [|exact Hr0]. cbn [set_attrs p_health] in Hne. rewrite Hh in Hne.
        destruct Hne as [-> ->]. destruct E as [-> ->]. cbn. auto.
      - destruct (p_attrs s) as [a|].
        + destruct E1 as (r0 & Hl & E). assert (Hr0 : r0 <> Panic) by (intros ->; exact E).
          apply load_next_shape in Hl; [|exact Hr0]. rewrite Hh in Hl. destruct Hl as [-> ->]. subst. auto.
        + destruct E1 as [-> ->]. auto.
      - destruct (p_attrs s) as [a|].
        + destruct E1 as (r0 & Hl & E). assert (Hr0 : r0 <> Panic) by (intros ->; exact E).
          apply load_next_shape in Hl; [|exact Hr0]. rewrite Hh in Hl. destruct Hl as [-> ->]. subst. auto.
        + destruct E1 as [-> ->]. auto.
      - destruct E1 as (r0 & Hs & E). assert (Hr0 : r0 <> Panic) by (intros ->; exact E).
        apply skip_shape in Hs; [|exact Hr0]. destruct Hs as (n & rest & Es & Hm).
        apply m_skip_to_quieta in Hm; [|exact Hr0]. destruct Hm as [(_ & Hh' & _) _].
        cbn in Hh'. rewrite Hh in Hh'. split; [exact Hh'|]. split; [exact I|]. discriminate. }
    destruct G as (G1 & G2 & G3). destruct (IH _ _ _ _ G1 E2 Hn') as (I1 & I2 & I3).
    split; [exact I1|]. split.
    + cbn [combine]. constructor; [destruct o; exact G2 | exact I2].
    + cbn [forallb]. intros Hf. apply andb_true_iff in Hf. destruct Hf as [Hf1 Hf2].
      apply negb_true_iff in Hf1. destruct (G3 Hf1) as (A & B & C). destruct (I3 Hf2) as (A' & B' & C').
      repeat split; congruence.
Qed.

(** A failing call aborts, at the position it reports. *)
Lemma op_err_aborts : forall O (o : op O) s e s', is_skip o = false ->
  run_op o s = (Err e, s') -> e <> mkErr (EOperation AlreadyFinished) None ->
  exists p, e_position e = Some p /\ p_health s' = Aborted p.
Proof.
  intros O o s e s' Ho H He. apply run_op_shape in H; [|discriminate]. destruct o as [|ld|ld|]; cbn [op_shape] in H; try discriminate.
  - destruct H as (r0 & s2 & Hne & E). destruct r0 as [v|e0|]; [destruct E as [[=] _] | | tauto].
    destruct E as [[= ->] ->]. apply next_event_shape in Hne; [|discriminate]. cbn [set_attrs p_health] in Hne.
    destruct (p_health s) eqn:Hh.
    + destruct Hne as (_ & r0 & s1 & _ & e1 & p & _ & _ & -> & ->). exists p. auto.
    + destruct Hne as [_ [= ->]]. congruence.
    + destruct Hne as [-> [= ->]]. exists p. auto.
  - destruct (p_attrs s) as [a|]; [|destruct H as [[=] _]].
    destruct H as (r0 & Hl & E). destruct r0 as [v|e0|]; [discriminate| |tauto]. injection E as ->.
    apply load_next_shape in Hl; [|discriminate]. destruct (p_health s) eqn:Hh.
    + destruct Hl as (a' & _ & r1 & s1 & _ & _ & e1 & p0 & _ & _ & -> & ->). eexists. cbn. split; reflexivity.
    + destruct Hl as [_ [= ->]]. congruence.
    + destruct Hl as [-> [= ->]]. exists p. auto.
  - destruct (p_attrs s) as [a|]; [|destruct H as [[=] _]].
    destruct H as (r0 & Hl & E). destruct r0 as [v|e0|]; [discriminate| |tauto]. injection E as ->.
    apply load_next_shape in Hl; [|discriminate]. destruct (p_health s) eqn:Hh.
    + destruct Hl as (a' & _ & r1 & s1 & _ & _ & e1 & p0 & _ & _ & -> & ->). eexists. cbn. split; reflexivity.
    + destruct Hl as [_ [= ->]]. congruence.
    + destruct Hl as [-> [= ->]]. exists p. auto.
Qed.

(** ** The end of the document *)
Definition ended (s : pstate) : Prop := p_health s = Finished /\ p_stack s = [] /\ p_attrs s = None.

Lemma fbx_end_ended : forall O s f s', run_op (@ONext O) s = (Ok (BEvent (EvEndFbx f)), s') -> ended s'.
Proof.
  intros O s f s' H. apply run_op_shape in H; [|discriminate]. destruct H as (r0 & s1 & Hn & H).
  destruct r0 as [e|e|]; [|destruct H as [[=] _]|tauto]. destruct H as [[= <-] H]. subst s'.
  apply next_event_shape in Hn; [|discriminate]. cbn [set_attrs p_health] in Hn.
  destruct (p_health s); try (destruct Hn as [_ [=]]).
  destruct Hn as (_ & r0 & s2 & Hp & -> & Hf). apply impl_path_shape in Hp. destruct Hp as (Es & Q).
  assert (Q3 := steps_elim _ _ _ _ _ _ read_footer_quiet Hf).
  assert (Q4 : quieta (set_last (Some KEndFbx) (set_health Finished s2)) s1) by (apply Q3; destruct f; discriminate).
  destruct Q as [(_ & _ & E & _) Ea]. destruct Q4 as [(_ & F1 & F2 & _) Fa]. cbn in *.
  unfold ended. repeat split; congruence.
Qed.

Lemma ended_run : forall O (l : list (op O)) s rs s', ended s ->
  run_ops l s = (rs, s') ->
  p_rd s' = p_rd s /\ p_log s' = p_log s /\
  Forall (fun c => match c with
                   | (ONext, r) => r = Err (mkErr (EOperation AlreadyFinished) None)
                   | (OLoad _, r) | (OLoadBuf _, r) => r = Ok BIgnored
                   | (OSkip, r) => r = Panic
                   end) (combine l rs).
Proof.
  intros O l. induction l as [|o l IH]; intros s rs s' (E1 & E2 & E3) H.
  - cbn in H. injection H as <- <-. repeat split; auto; constructor.
  - cbn [run_ops] in H. destruct o as [|ld|ld|].
    + assert (Er : run_op (@ONext O) s = (Err (mkErr (EOperation AlreadyFinished) None), set_attrs None s)).
      { cbn [run_op]. rewrite bind_modify. unfold next_event, bind at 1. unfold gets at 1.
        unfold bind, ensure_continuable. cbn [set_attrs p_health]. rewrite E1. reflexivity. }
      rewrite Er in H. destruct (run_ops l (set_attrs None s)) as [rs' s2] eqn:E. injection H as <- <-.
      apply IH in E; [|repeat split; auto]. destruct E as (A & B & C). repeat split; auto.
      cbn [combine]. constructor; auto.
    + assert (Er : run_op (OLoad ld) s = (Ok BIgnored, s)).
      { cbn [run_op]. rewrite bind_gets, E3. reflexivity. }
      rewrite Er in H. destruct (run_ops l s) as [rs' s2] eqn:E. injection H as <- <-.
      apply IH in E; [|repeat split; auto]. destruct E as (A & B & C). repeat split; auto.
      cbn [combine]. constructor; auto.
    + assert (Er : run_op (OLoadBuf ld) s = (Ok BIgnored, s)).
      { cbn [run_op]. rewrite bind_gets, E3. reflexivity. }
      rewrite Er in H. destruct (run_ops l s) as [rs' s2] eqn:E. injection H as <- <-.
      apply IH in E; [|repeat split; auto]. destruct E as (A & B & C). repeat split; auto.
      cbn [combine]. constructor; auto.
    + assert (Er : run_op (@OSkip O) s = (Panic, set_attrs None s)).
      { cbn [run_op]. rewrite bind_modify. unfold skip_current_node.
        unfold bind at 1. rewrite bind_gets. unfold current_node. cbn [set_attrs p_stack]. rewrite E2. reflexivity. }
      rewrite Er in H. injection H as <- <-. repeat split; auto. cbn. constructor; [reflexivity|].
      destruct l; constructor.
Qed.

End WithEnv.
