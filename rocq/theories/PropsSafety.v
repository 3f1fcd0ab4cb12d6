(** Panic freedom, termination, end-marker warnings and attribute counts. *)
Require Import Coq.Lists.List Coq.NArith.NArith Coq.ZArith.ZArith Coq.Bool.Bool Coq.micromega.Lia.
Require Import ZifyBool ZifyNat ZifyN.
Require Import Coq.Init.Byte.
Require Import Verif.Base Verif.BaseFacts Verif.Utf8 Verif.Types Verif.Io Verif.IoFacts Verif.Parser Verif.MonadFacts Verif.ParserSteps Verif.ParserShape Verif.SpecHist Verif.ParserHist Verif.Loaders Verif.Spec Verif.Zlib Verif.Samples Verif.ParserPos Verif.ReadFacts Verif.PropsEvents Verif.ParserSafe.
Import ListNotations.
Ltac Zify.zify_post_hook ::= Z.div_mod_to_equations.

Section WithEnv.
Context {env : Env}.

(** ** C08: no panics *)

(** After any history of calls (node skips included) that has not panicked, the next
    [next_event] or attribute load does not panic.  The only exception: a build with
    overflow checks reading a document of version 7.5 or later can overflow the sum
    "position + attribute length" in [next_event]; attribute loads never panic. *)
Theorem C08_no_panic : forall O data sched seeks seekable h p (l : list (op O)) rs s (o : op O),
  opened data sched seeks seekable h p -> (lenN data <= 2 ^ 63)%N ->
  run_ops l p = (rs, s) -> no_panic rs ->
  is_skip o = false ->
  ovf_checks = false \/ (p_ver p < 7500)%N \/ is_load o = true ->
  fst (run_op o s) <> Panic.
Proof.
  intros O data sched seeks seekable h p l rs s o Ho Hl Hr Hn Hs Hc Hp.
  assert (Hi : inv s) by (eapply run_ops_inv; eauto; eapply opened_inv; eauto).
  pose proof (run_op_safe O o (p_ver s) Hs s (conj Hi eq_refl)) as K. rewrite Hp in K. cbn in K.
  destruct K as [K1 [K2 K3]]. apply run_ops_fwd in Hr; [|exact Hn]. destruct Hr as (Hv & _).
  destruct Hc as [Hc|[Hc|Hc]]; [congruence | rewrite Hv in K3; lia|].
  destruct o; discriminate.
Qed.

(** Corollary: a client that never skips nodes never sees a panic. *)
Theorem C08_no_panic_run : forall O data sched seeks seekable h p (l : list (op O)),
  opened data sched seeks seekable h p -> (lenN data <= 2 ^ 63)%N ->
  existsb is_skip l = false -> ovf_checks = false \/ (p_ver p < 7500)%N ->
  no_panic (fst (run_ops l p)) /\ length (fst (run_ops l p)) = length l.
Proof.
  intros O data sched seeks seekable h p l Ho Hl Hs Hc.
  pose proof (opened_inv _ _ _ _ _ _ Ho Hl) as Hi. clear Ho Hl.
  revert p Hc Hi. induction l as [|o l IH]; intros p Hc Hi; [split; reflexivity|].
  cbn in Hs. apply orb_false_iff in Hs. destruct Hs as [Hs1 Hs2].
  pose proof (run_op_safe O o (p_ver p) Hs1 p (conj Hi eq_refl)) as K.
  pose proof (run_op_fwd O o p) as F. cbn [run_ops].
  destruct (run_op o p) as [r s1] eqn:E. cbn in K, F.
  assert (Hv : r <> Panic -> p_ver s1 = p_ver p) by (intros X; apply (F X)).
  destruct r as [v|e|].
  - specialize (IH Hs2 s1). rewrite Hv in IH by discriminate. specialize (IH Hc K).
    destruct (run_ops l s1) as [rs s2]. cbn in *. unfold no_panic in *. cbn. destruct IH as [-> ->]. auto.
  - specialize (IH Hs2 s1). rewrite Hv in IH by discriminate. specialize (IH Hc K).
    destruct (run_ops l s1) as [rs s2]. cbn in *. unfold no_panic in *. cbn. destruct IH as [-> ->]. auto.
  - exfalso. destruct K as (_ & K2 & K3). destruct Hc; [congruence | lia].
Qed.

(** Opening a parser never panics. *)
Theorem C08_open_no_panic : forall data sched seeks seekable,
  any_parser (mkStream data 0 sched seeks) seekable <> Panic.
Proof.
  intros data sched seeks seekable H. unfold any_parser in H.
  destruct (header_load (mkStream data 0 sched seeks)) as [[v|e|] s'] eqn:Eh; try discriminate.
  - destruct (ver_supported v) eqn:Ev; [|discriminate]. unfold parser_create in H. rewrite Ev in H. discriminate.
  - unfold header_load in Eh.
    repeat match type of Eh with
    | context [let '(_, _) := ?x in _] => destruct x
    | context [match ?x with _ => _ end] => destruct x
    end; try discriminate.
Qed.

(** ** C12, the panic part: skipping panics exactly when no node is open or the end offset
    recorded in the node's header lies before the current position. *)
Theorem C12_skip_panics_iff : forall O data sched seeks seekable h p (l : list (op O)) rs s,
  opened data sched seeks seekable h p -> (lenN data <= 2 ^ 63)%N ->
  run_ops l p = (rs, s) -> no_panic rs ->
  (fst (run_op (@OSkip O) s) = Panic <->
   match current_node s with None => True | Some n => (sn_end n < r_pos (p_rd s))%N end).
Proof.
  intros O data sched seeks seekable h p l rs s Ho Hl Hr Hn.
  assert (Hi : inv s) by (eapply run_ops_inv; eauto; eapply opened_inv; eauto).
  assert (Hi' : inv (set_attrs None s)) by (apply inv_set_attrs; [exact Hi|discriminate]).
  pose proof (skip_safe_iff _ Hi') as K. cbn [run_op]. rewrite bind_modify. unfold bind, current_node.
  change (p_stack (set_attrs None s)) with (p_stack s) in K. change (rpos (set_attrs None s)) with (r_pos (p_rd s)) in K.
  destruct (skip_current_node (set_attrs None s)) as [r s1]. cbn [fst] in K.
  destruct (p_stack s) as [|n st]; cbn [hd_error].
  - subst r. cbn. tauto.
  - rewrite <- K. destruct r; cbn; split; intros X; congruence || discriminate.
Qed.

(** ** C09: every loop over [next_event] terminates *)
Definition hb (s : pstate) : N := match p_health s with Running => 1%N | _ => 0%N end.
Definition potential (s : pstate) : N :=
  (2 * (lenN (s_rem (r_stream (p_rd s))) / 13) + lenN (p_stack s) + hb s)%N.

Lemma fwd_rem : forall s s', rd_fwd (p_rd s) (p_rd s') ->
  (lenN (s_rem (r_stream (p_rd s'))) <= lenN (s_rem (r_stream (p_rd s))))%N.
Proof. intros s s' (d & q & (M & _) & _). rewrite M, lenN_dropN. lia. Qed.

Lemma header_costs : forall s h s', read_node_header s = (Ok h, s') ->
  (lenN (s_rem (r_stream (p_rd s'))) + 13 <= lenN (s_rem (r_stream (p_rd s))))%N.
Proof.
  intros s h s' H. apply read_node_header_bytes in H. destruct H as (A & _ & _).
  rewrite A, lenN_app, hdr_bytes_len. unfold hdr_width. destruct (p_ver s <? 7500)%N; lia.
Qed.

Lemma quiet_potential : forall s s', quiet s s' -> (potential s' <= potential s)%N.
Proof.
  intros s s' (_ & A & B & _ & _ & _ & _ & C). apply fwd_rem in C. unfold potential, hb. rewrite A, B. lia.
Qed.

Lemma potential_op : forall O (o : op O) s r s', run_op o s = (r, s') -> r <> Panic ->
  (potential s' + (if ok_next (o, r) then 1 else 0) <= potential s)%N.
Proof.
  intros O o s r s' H Hp. apply run_op_shape in H; [|exact Hp]. destruct o as [|ld|ld|].
  - destruct H as (r0 & s1 & H & Hr). assert (Hr0 : r0 <> Panic) by (intros ->; exact Hr).
    pose proof H as H'. apply next_event_shape in H; [|exact Hr0].
    change (p_health (set_attrs None s)) with (p_health s) in H.
    assert (P0 : potential (set_attrs None s) = potential s) by reflexivity.
    set (s0 := set_attrs None s) in *.
    destruct (p_health s) eqn:Eh.
    2:{ destruct H as [-> ->]. destruct Hr as [-> ->]. cbn [ok_next]. rewrite P0. lia. }
    2:{ destruct H as [-> ->]. destruct Hr as [-> ->]. cbn [ok_next]. rewrite P0. lia. }
    destruct H as (Hl & r1 & s2 & Hpath & H).
    destruct r0 as [ev|e0|]; [| |tauto].
    + destruct Hr as [-> Hr]. cbn [ok_next]. destruct ev as [name| |f].
      * destruct H as (-> & -> & _). destruct Hr as (n & rest & _ & ->).
        pose proof (impl_path_shape _ _ _ Hpath) as (n1 & s3 & Q & E & _).
        inversion Hpath; subst; try discriminate.
        match goal with X : start_node _ _ _ = _ |- _ => rename X into Est end.
        match goal with X : read_node_header _ = _ |- _ => pose proof (header_costs _ _ _ X) as Hc end.
        match goal with X : at_header _ _ |- _ => destruct X as [Esk _] end.
        pose proof (steps_elim _ _ _ _ _ _ skip_unread_quiet Esk ltac:(discriminate)) as [(_ & _ & _ & _ & _ & _ & _ & F1) _].
        pose proof (start_node_shape _ _ _ _ _ Est ltac:(discriminate)) as (_ & n2 & s6 & [(_ & _ & _ & _ & _ & _ & _ & F2) _] & E2 & _).
        apply fwd_rem in F1. apply fwd_rem in F2.
        destruct Q as [(_ & Qh & Qs & _) _].
        unfold potential, hb.
        cbn [p_health p_stack p_rd set_attrs set_last].
        assert (Hrd : p_rd (push n1 (count_child s3)) = p_rd s6).
        { rewrite E2. unfold push, count_child. destruct (p_stack s6); reflexivity. }
        rewrite Hrd.
        assert (Hst : lenN (p_stack (push n1 (count_child s3))) = (lenN (p_stack s0) + 1)%N).
        { unfold push, count_child. rewrite <- Qs. destruct (p_stack s3) eqn:E3; cbn [p_stack set_stack set_top]; rewrite ?E3; unfold lenN; cbn [length]; lia. }
        rewrite Hst.
        assert (Hh : p_health (push n1 (count_child s3)) = p_health s0).
        { rewrite <- Qh. unfold push, count_child. destruct (p_stack s3); reflexivity. }
        rewrite Hh. change (p_rd s0) with (p_rd s). change (p_health s0) with (p_health s). change (p_stack s0) with (p_stack s).
        change (p_rd s0) with (p_rd s) in F1. change (p_health s) with (p_health s). lia.
      * subst s'. destruct H as (-> & ->).
        apply impl_path_shape in Hpath. destruct Hpath as (n & rest & s3 & Es & Q1 & Q2).
        apply proj1 in Q1. apply proj1 in Q2. apply quiet_potential in Q2.
        pose proof (quiet_potential _ _ Q1) as Q1p.
        assert (potential (set_last (Some KEnd) s2) = potential s2) by reflexivity.
        assert (potential (pop s3) + 1 = potential s3)%N.
        { destruct Q1 as (_ & _ & Qs & _). unfold potential, hb, pop. cbn [p_rd p_stack p_health set_stack]. rewrite Qs, Es.
          cbn [tl]. rewrite lenN_cons. lia. }
        lia.
      * subst s'. destruct H as (-> & Hf).
        apply impl_path_shape in Hpath. destruct Hpath as (Es & [Q _]).
        assert (Q2 : quieta (set_last (Some KEndFbx) (set_health Finished s2)) s1).
        { destruct f; eapply steps_elim; try apply read_footer_quiet; eauto; discriminate. }
        destruct Q2 as [Q2 _]. destruct Q2 as (_ & A2 & B2 & _ & _ & _ & _ & C2). cbn [p_health p_stack p_rd set_last set_health] in *.
        pose proof (fwd_rem (set_last (Some KEndFbx) (set_health Finished s2)) s1 C2) as F2. cbn [p_rd set_last set_health] in F2.
        destruct Q as (_ & A1 & B1 & _ & _ & _ & _ & C1). apply fwd_rem in C1.
        unfold potential, hb in *. rewrite A2, B2, B1. change (p_health s0) with (p_health s) in *. rewrite Eh in *.
        change (p_rd s0) with (p_rd s) in *. change (p_stack s0) with (p_stack s). lia.
    + destruct Hr as [-> ->]. cbn [ok_next]. destruct H as (e1 & p1 & -> & _ & -> & _).
      assert (Hle : (potential s2 <= potential s0)%N).
      { apply impl_path_shape in Hpath. destruct Hpath as [Q|(n & rest & s3 & Es & Q1 & Q2)].
        - apply quiet_potential. apply Q.
        - apply proj1 in Q2. apply quiet_potential in Q2.
          pose proof (quiet_potential _ _ (proj1 Q1)) as Q1p.
          assert (potential (pop s3) + 1 = potential s3)%N; [|lia].
          destruct Q1 as [(_ & _ & Qs & _) _]. unfold potential, hb, pop. cbn [p_rd p_stack p_health set_stack]. rewrite Qs, Es.
          cbn [tl]. rewrite lenN_cons. lia. }
      rewrite <- P0. unfold potential, hb in *. cbn [p_health p_stack p_rd set_health].
      destruct (p_health s2); lia.
  - cbn [ok_next]. cbn in H. destruct (p_attrs s) as [a|]; [|destruct H as [_ ->]; lia].
    destruct H as (r0 & H & Hr). assert (Hr0 : r0 <> Panic) by (intros ->; exact Hr).
    apply load_next_shape in H; [|exact Hr0]. destruct (p_health s) eqn:Eh.
    2,3: destruct H as [-> _]; lia.
    destruct H as (a0 & _ & r1 & s1 & Eb & Hr1 & H). apply load_body_quietl in Eb; [|exact Hr1].
    destruct Eb as [Q _]. apply quiet_potential in Q.
    destruct r0; [| |tauto].
    + destruct H as [_ ->]. lia.
    + destruct H as (e0 & p0 & _ & _ & -> & _). unfold potential, hb in *. cbn [p_health p_stack p_rd set_health]. destruct (p_health s1); lia.
  - cbn [ok_next]. cbn in H. destruct (p_attrs s) as [a|]; [|destruct H as [_ ->]; lia].
    destruct H as (r0 & H & Hr). assert (Hr0 : r0 <> Panic) by (intros ->; exact Hr).
    apply load_next_shape in H; [|exact Hr0]. destruct (p_health s) eqn:Eh.
    2,3: destruct H as [-> _]; lia.
    destruct H as (a0 & _ & r1 & s1 & Eb & Hr1 & H). apply load_body_quietl in Eb; [|exact Hr1].
    destruct Eb as [Q _]. apply quiet_potential in Q.
    destruct r0; [| |tauto].
    + destruct H as [_ ->]. lia.
    + destruct H as (e0 & p0 & _ & _ & -> & _). unfold potential, hb in *. cbn [p_health p_stack p_rd set_health]. destruct (p_health s1); lia.
  - cbn [ok_next]. destruct H as (r0 & H & Hr). assert (Hr0 : r0 <> Panic) by (intros ->; exact Hr).
    apply skip_shape in H; [|exact Hr0]. destruct H as (n & rest & Es & H).
    apply m_skip_to_quieta in H; [|exact Hr0]. destruct H as [Q _]. apply quiet_potential in Q.
    assert (potential (set_last (Some KEnd) (pop (set_attrs None s))) + 1 = potential s)%N; [|lia].
    unfold potential, hb, pop. cbn [p_rd p_stack p_health set_stack set_attrs set_last] in *. rewrite Es. cbn [tl]. rewrite lenN_cons. lia.
Qed.

(** Number of successful [next_event] calls in a history. *)
Definition successes {O} (h : list (call O)) : N := lenN (filter ok_next h).

Lemma potential_run : forall O (l : list (op O)) s rs s', run_ops l s = (rs, s') -> no_panic rs ->
  (potential s' + successes (combine l rs) <= potential s)%N.
Proof.
  intros O l. induction l as [|o l IH]; intros s rs s' H Hn.
  - injection H as <- <-. unfold successes. cbn. lia.
  - apply run_ops_cons_inv in H; [|exact Hn]. destruct H as (r & s1 & rs' & E1 & Hr & E2 & -> & Hn').
    apply potential_op in E1; [|exact Hr]. specialize (IH _ _ _ E2 Hn').
    unfold successes in *. cbn [combine filter]. destruct (ok_next (o, r)); [rewrite lenN_cons|]; lia.
Qed.

Theorem C09_event_count_bound : forall O data sched seeks seekable h p (l : list (op O)) rs s,
  opened data sched seeks seekable h p ->
  run_ops l p = (rs, s) -> no_panic rs ->
  (successes (combine l rs) <= 2 * ((lenN data - 27) / 13) + 1)%N.
Proof.
  intros O data sched seeks seekable h p l rs s Ho Hr Hn.
  apply potential_run in Hr; [|exact Hn].
  apply opened_init in Ho. destruct Ho as (H1 & H2 & _ & _ & _ & _ & _ & _ & _ & _ & H11 & _ & _).
  unfold potential at 2 in Hr. unfold hb in Hr. rewrite H1, H2, H11, lenN_dropN in Hr. cbn [lenN length] in Hr.
  change (lenN []) with 0%N in Hr. lia.
Qed.

(** ** C11: end-marker warnings *)

(** Skipping the unread attributes only moves the reader. *)
Lemma skip_to_ok : forall n s s', m_skip_to n s = (Ok tt, s') ->
  s' = set_rd (p_rd s') s /\
  s_rem (r_stream (p_rd s')) = dropN (n - r_pos (p_rd s)) (s_rem (r_stream (p_rd s))).
Proof.
  intros n s s' H. unfold m_skip_to, rdop, bind in H.
  destruct (skip_to n (p_rd s)) as [[[e|]|] r'] eqn:E; try discriminate. injection H as <-.
  split; [reflexivity|]. cbn. pose proof E as E'. apply skip_to_spec in E. destruct E as [Hle E].
  destruct (r_seekable (p_rd s)) eqn:Es; [apply E|].
  unfold skip_to in E'. destruct (N.ltb_spec n (r_pos (p_rd s))) as [Hb|Hb]; [discriminate|].
  unfold skip_distance in E'. rewrite Es in E'. unfold skip_distance_plain in E'.
  destruct (rte (s_sched (r_stream (p_rd s))) (s_rem (r_stream (p_rd s))) (n - r_pos (p_rd s))) as [[[e got] rem'] sc'] eqn:Er.
  apply rte_gen in Er. destruct Er as (Hr & Hl & Hn). injection E' as -> <-. cbn.
  specialize (Hn eq_refl). apply (app_inv_head got). rewrite <- Hr. rewrite Hn. symmetry. apply takeN_dropN.
Qed.

Definition unread (s : pstate) : N :=
  match current_node s with None => 0%N | Some n => (sn_attrs_end n - r_pos (p_rd s))%N end.

Lemma skip_unread_ok : forall s s', skip_unread_attributes s = (Ok tt, s') ->
  s' = set_rd (p_rd s') s /\ s_rem (r_stream (p_rd s')) = dropN (unread s) (s_rem (r_stream (p_rd s))).
Proof.
  intros s s' H. unfold skip_unread_attributes, unread in *. rewrite bind_gets in H. destruct (current_node s) as [n|].
  - unfold reader_pos in H. rewrite bind_gets in H. destruct (N.ltb_spec (r_pos (p_rd s)) (sn_attrs_end n)).
    + apply skip_to_ok. exact H.
    + injection H as <-. split; [destruct s; reflexivity|]. replace (sn_attrs_end n - r_pos (p_rd s))%N with 0%N by lia.
      rewrite dropN_0. reflexivity.
  - injection H as <-. split; [destruct s; reflexivity|]. rewrite dropN_0. reflexivity.
Qed.

(** Children are counted, and "the last event was [EndNode]" means "the current node has a
    child". *)
Definition kidsok (s : pstate) : Prop :=
  match p_stack s with
  | [] => True
  | n :: rest => Forall (fun m => (1 <= sn_kids m)%N) rest /\ (p_last s = Some KEnd <-> (1 <= sn_kids n)%N)
  end.

Lemma kidsok_ext : forall s s', kidsok s -> p_stack s' = p_stack s -> p_last s' = p_last s -> kidsok s'.
Proof. intros s s' H A B. unfold kidsok. rewrite A, B. exact H. Qed.

Lemma kidsok_pop : forall s s' n rest, kidsok s -> p_stack s = n :: rest -> p_stack s' = rest -> p_last s' = Some KEnd -> kidsok s'.
Proof.
  intros s s' n rest H A B C. unfold kidsok in *. rewrite A in H. rewrite B, C. destruct H as [H _].
  destruct rest as [|m rest']; [exact I|]. inversion H; subst. split; [assumption|]. tauto.
Qed.

Lemma kidsok_op : forall O (o : op O) s r s', kidsok s -> run_op o s = (r, s') -> r <> Panic ->
  failed_next (o, r) = false -> kidsok s'.
Proof.
  intros O o s r s' Hk H Hp Hf. apply run_op_shape in H; [|exact Hp]. destruct o as [|ld|ld|]; cbn [op_shape] in H.
  - destruct H as (r0 & s1 & Hn & H). destruct r0 as [e|e|]; [|destruct H; subst; discriminate|tauto].
    destruct H as [-> H]. apply next_event_shape in Hn; [|discriminate].
    change (p_health (set_attrs None s)) with (p_health s) in Hn.
    destruct (p_health s); [|destruct Hn; discriminate|destruct Hn; discriminate].
    destruct Hn as (_ & r1 & s2 & Hpath & Hn).
    assert (Hk0 : kidsok (set_attrs None s)) by exact Hk.
    destruct e as [name| |f].
    + destruct Hn as (-> & -> & _). destruct H as (n & rest & _ & ->).
      apply impl_path_shape in Hpath. destruct Hpath as (m & s3 & [(_ & _ & E1 & E2 & _) _] & -> & Hm).
      unfold kidsok in *. rewrite <- E1 in Hk0. unfold push, count_child. destruct (p_stack s3) as [|t st] eqn:E3.
      * cbn. rewrite E3. split; [constructor|]. rewrite Hm. split; [discriminate|lia].
      * cbn. destruct Hk0 as [Hk1 _]. split.
        -- constructor; [cbn; lia|]. assumption.
        -- rewrite Hm. split; [discriminate|lia].
    + destruct Hn as (-> & ->). subst s'. apply impl_path_shape in Hpath.
      destruct Hpath as (n & rest & s3 & Es & [(_ & _ & E1 & _) _] & [(_ & _ & E2 & _) _]).
      eapply kidsok_pop; [exact Hk0|exact Es| |reflexivity].
      cbn [p_stack set_last]. rewrite E2. cbn. rewrite E1, Es. reflexivity.
    + destruct Hn as (-> & Hf'). subst s'. apply impl_path_shape in Hpath. destruct Hpath as (Es & [(_ & _ & E1 & _) _]).
      assert (Q2 : quieta (set_last (Some KEndFbx) (set_health Finished s2)) s1).
      { destruct f; eapply steps_elim; try apply read_footer_quiet; eauto; discriminate. }
      destruct Q2 as [(_ & _ & E2 & _) _]. unfold kidsok. rewrite E2. cbn. rewrite E1, Es. exact I.
  - destruct (p_attrs s); [|destruct H as [_ ->]; exact Hk]. destruct H as (r0 & H & Hr).
    assert (Hr0 : r0 <> Panic) by (intros ->; exact Hr). apply load_next_ctl in H; [|exact Hr0].
    eapply kidsok_ext; [exact Hk| |]; apply H.
  - destruct (p_attrs s); [|destruct H as [_ ->]; exact Hk]. destruct H as (r0 & H & Hr).
    assert (Hr0 : r0 <> Panic) by (intros ->; exact Hr). apply load_next_ctl in H; [|exact Hr0].
    eapply kidsok_ext; [exact Hk| |]; apply H.
  - destruct H as (r0 & H & Hr). assert (Hr0 : r0 <> Panic) by (intros ->; exact Hr).
    apply skip_shape in H; [|exact Hr0]. destruct H as (n & rest & Es & H).
    apply m_skip_to_quieta in H; [|exact Hr0]. destruct H as [(_ & _ & E1 & E2 & _) _].
    eapply kidsok_pop; [exact Hk|exact Es| |].
    + rewrite E1. cbn in *. rewrite Es. reflexivity.
    + rewrite E2. reflexivity.
Qed.

Lemma kidsok_run : forall O (l : list (op O)) s rs s', kidsok s -> run_ops l s = (rs, s') -> no_panic rs ->
  existsb failed_next (combine l rs) = false -> kidsok s'.
Proof.
  intros O l. induction l as [|o l IH]; intros s rs s' Hk H Hn Hf.
  - cbn in H. injection H as <- <-. exact Hk.
  - apply run_ops_cons_inv in H; [|exact Hn]. destruct H as (r & s1 & rs' & E1 & Hr & E2 & -> & Hn').
    cbn [combine existsb] in Hf. apply orb_false_iff in Hf. destruct Hf as [Hf1 Hf2].
    eapply IH; [|exact E2|exact Hn'|exact Hf2]. eapply kidsok_op; eauto.
Qed.

Lemma warn_ok_log : forall b w s s', when b (warn_here w) s = (Ok tt, s') ->
  map fst (p_log s') = (if b then [w] else []) ++ map fst (p_log s) /\
  p_rd s' = p_rd s.
Proof.
  intros [|] w s s' H; cbn [when] in H; [|injection H as <-; auto].
  unfold warn_here, position, bind in H. destruct (position_of s); [|discriminate].
  unfold warn in H. destruct (p_handler s) as [hd|]; [destruct (hd _)|]; try discriminate; injection H as <-; auto.
Qed.

(** A node ended.  [body] is what follows the unread attributes of the node.  Either the
    node ended right there, without a marker, and [MissingNodeEndMarker] was reported iff it
    has children or no attributes; or an all-zero header (the marker) was consumed, and
    [ExtraNodeEndMarker] was reported iff the node has attributes and no children.  No other
    warning is reported. *)
Theorem C11_end_marker_warnings : forall O data sched seeks seekable h p (l : list (op O)) rs s s' t,
  opened data sched seeks seekable h p ->
  run_ops l p = (rs, s) -> no_panic rs -> existsb failed_next (combine l rs) = false ->
  tk_run tk_init (combine l rs) = Some t ->
  run_op (@ONext O) s = (Ok (BEvent EvEnd), s') ->
  exists n f fs, current_node s = Some n /\ tk_open t = f :: fs /\
    let attributes := sn_attrs n in
    let children := fr_children f in
    let body := dropN (sn_attrs_end n - r_pos (p_rd s)) (s_rem (r_stream (p_rd s))) in
    (s_rem (r_stream (p_rd s')) = body /\ r_pos (p_rd s') = sn_end n /\
     map fst (p_log s') =
       (if (0 <? children)%N || (attributes =? 0)%N then [MissingNodeEndMarker] else []) ++ map fst (p_log s))
    \/
    (body = end_marker (p_ver p) ++ s_rem (r_stream (p_rd s')) /\ r_pos (p_rd s') = sn_end n /\
     map fst (p_log s') =
       (if (0 <? attributes)%N && (children =? 0)%N then [ExtraNodeEndMarker] else []) ++ map fst (p_log s)).
Proof.
  intros O data sched seeks seekable h p l rs s s' t Ho Hr Hn Hf Ht He.
  assert (Hk : kidsok s).
  { eapply kidsok_run; eauto. apply opened_init in Ho. unfold kidsok. destruct Ho as (_ & -> & _). exact I. }
  destruct (tracked_run O l tk_init p rs s (opened_tracked _ _ _ _ _ _ Ho) Hr Hn Hf) as (t' & Ht' & Htr).
  rewrite Ht in Ht'. injection Ht' as <-.
  assert (Hv : p_ver s = p_ver p) by (apply run_ops_fwd in Hr; [apply Hr|exact Hn]).
  apply run_op_shape in He; [|discriminate]. cbn [op_shape] in He. destruct He as (r0 & s1 & He & H).
  destruct r0 as [e|e|]; [|destruct H; discriminate|tauto]. destruct H as [[= <-] ->].
  apply next_event_shape in He; [|discriminate].
  change (p_health (set_attrs None s)) with (p_health s) in He.
  destruct (p_health s); [|destruct He; discriminate|destruct He; discriminate].
  destruct He as (_ & r1 & s2 & Hpath & -> & ->).
  set (s0 := set_attrs None s) in *.
  assert (G : forall n, current_node s0 = Some n -> exists f fs, tk_open t = f :: fs /\ fr_children f = sn_kids n /\
     ((match p_last s with Some KEnd => true | _ => false end) = (0 <? sn_kids n)%N)).
  { intros n Hc. change (current_node s0) with (current_node s) in Hc. unfold current_node in Hc.
    destruct Htr as (_ & _ & Ha). unfold kidsok in Hk. destruct (p_stack s) as [|n' st]; [discriminate|]. injection Hc as ->.
    destruct (tk_open t) as [|f fs].
    { apply agree_length in Ha. rewrite !rev_length in Ha. discriminate. }
    cbn in Ha. apply agree_snoc in Ha. exists f, fs. split; [reflexivity|]. split; [apply Ha|].
    destruct Hk as [_ Hk]. destruct (N.ltb_spec 0 (sn_kids n)).
    - assert (E : p_last s = Some KEnd) by (apply Hk; lia). rewrite E. reflexivity.
    - destruct (p_last s) as [[| |]|]; try reflexivity. exfalso. assert (1 <= sn_kids n)%N by (apply Hk; reflexivity). lia. }
  inversion Hpath; subst.
  - (* without marker *)
    match goal with X : when _ _ ?a = (_, ?b) |- _ => rename a into sA; rename b into sB end.
    match goal with X : skip_unread_attributes _ = _ |- _ => apply skip_unread_ok in X; destruct X as [Eq Er] end.
    match goal with X : when _ _ _ = _ |- _ => apply warn_ok_log in X; destruct X as [El Erd] end.
    match goal with X : sn_end _ = rpos _ |- _ => rename X into Ee end.
    match goal with X : current_node _ = Some _ |- _ => rename X into Ec end.
    rewrite Eq in Ec. change (current_node (set_rd (p_rd sA) s0)) with (current_node s0) in Ec.
    destruct (G _ Ec) as (f & fs & Hop & Hch & Hlast). exists n, f, fs.
    split; [exact Ec|]. split; [exact Hop|]. left. cbn zeta.
    cbn [p_rd set_last]. assert (Epop : p_rd (pop sB) = p_rd sB) by (unfold pop; reflexivity).
    rewrite Epop, Erd, Er. unfold unread. rewrite Ec. split; [reflexivity|]. split; [symmetry; exact Ee|].
    cbn [p_log set_last]. change (p_log (pop sB)) with (p_log sB). rewrite El, Eq. cbn [p_log set_rd].
    change (p_log s0) with (p_log s). unfold missing_marker. cbn [p_last set_rd]. change (p_last s0) with (p_last s).
    rewrite Hlast, Hch. reflexivity.
  - match goal with X : read_node_header ?a = (_, ?b) |- _ => rename a into sA; rename b into sB end.
    match goal with X : at_header _ _ |- _ => destruct X as [X _]; apply skip_unread_ok in X; destruct X as [Eq Er] end.
    match goal with X : when _ _ _ = _ |- _ => apply warn_ok_log in X; destruct X as [El Erd] end.
    match goal with X : read_node_header _ = _ |- _ => apply read_node_header_bytes in X; destruct X as (Eb & Ep & Eh) end.
    match goal with X : sn_end _ = rpos _ |- _ => rename X into Ee end.
    match goal with X : current_node _ = Some _ |- _ => rename X into Ec end.
    match goal with X : is_node_end _ = true |- _ => rename X into Ene end.
    rewrite Eh in Ec. rewrite Eq in Ec. cbn [p_rd set_rd] in Ec.
    change (current_node (set_rd (p_rd sB) (set_rd (p_rd sA) s0))) with (current_node s0) in Ec.
    destruct (G _ Ec) as (f & fs & Hop & Hch & Hlast). exists c, f, fs.
    split; [exact Ec|]. split; [exact Hop|]. right. cbn zeta.
    cbn [p_rd set_last]. assert (Epop : p_rd (pop sB) = p_rd sB) by (unfold pop; reflexivity).
    rewrite Epop in Erd. rewrite Erd. split; [|split].
    + rewrite Er in Eb. unfold unread in Eb. rewrite Ec in Eb. change (p_rd s0) with (p_rd s) in Eb. rewrite Eb.
      rewrite (hdr_bytes_end _ _ Ene). rewrite Eq. cbn [p_ver set_rd]. change (p_ver s0) with (p_ver s). rewrite Hv. reflexivity.
    + symmetry. exact Ee.
    + cbn [p_log set_last]. rewrite El. change (p_log (pop sB)) with (p_log sB). rewrite Eh, Eq. cbn [p_log set_rd].
      change (p_log s0) with (p_log s). unfold extra_marker. rewrite Hch.
      destruct (N.ltb_spec 0 (sn_attrs c)), (N.eqb_spec (sn_attrs c) 0); try lia; reflexivity.
  - exfalso. match goal with X : start_node _ _ _ = _ |- _ => apply start_node_shape in X; [|discriminate]; destruct X; discriminate end.
Qed.

(** ** C16: attribute counts *)
Definition counts (s s' : pstate) : Prop :=
  match p_attrs s, p_attrs s' with
  | Some a, Some a' => a_total a' = a_total a /\ a_rest a' = a_rest a
  | None, None => True
  | _, _ => False
  end.
Lemma counts_pre : preorder counts.
Proof.
  split.
  - intros s. unfold counts. destruct (p_attrs s); auto.
  - intros a b c H1 H2. unfold counts in *.
    destruct (p_attrs a), (p_attrs b), (p_attrs c); try tauto. destruct H1, H2. split; congruence.
Qed.
Lemma steps_counts : forall A (m : M A), steps quieta m -> steps counts m.
Proof.
  intros A m H s Hp. destruct (H s Hp) as [_ E]. unfold counts. rewrite E. destruct (p_attrs s); auto.
Qed.
Lemma update_counts : forall n, steps counts (update_next_attr_start_offset n).
Proof.
  intros n s Hp. unfold update_next_attr_start_offset, reader_pos, get_attrs, bind, gets in *.
  destruct (p_attrs s) as [a|] eqn:Ea; [cbn in *|cbn in *; congruence].
  destruct (r_pos (p_rd s) + n <? pow2_64)%N; cbn in *; [|congruence].
  unfold counts. rewrite Ea. cbn. auto.
Qed.
Hint Resolve steps_counts update_counts warn_quiet parse_u8_quiet parse_uint_quiet parse_sint_quiet
  mk_decoder_quiet run_seq_quiet run_rd_quiet warn_bool_quiet read_array_header_quiet : counts.
Ltac qc := repeat first [ solve [auto 3 with counts] | steps_step counts_pre ].

Lemma load_next_impl_counts : forall O b t (ld : loader O) x y, steps counts (load_next_impl b t ld x y).
Proof. intros. unfold load_next_impl. destruct t; unfold load_array, load_special; qc. Qed.

Lemma load_body_counts : forall O b (ld : loader O) x y s r s' a, p_attrs s = Some a ->
  load_body b ld x y s = (Ok r, s') ->
  match r with
  | None => a_rest a = 0%N /\ s' = s
  | Some _ => (1 <= a_rest a)%N /\ exists a', p_attrs s' = Some a' /\ a_total a' = a_total a /\ (a_rest a' + 1 = a_rest a)%N
  end.
Proof.
  intros O b ld x y s r s' a Ha H. unfold load_body in H. mstep H as t s1 E1; try discriminate.
  unfold read_next_attr_type, get_attrs, reader_pos in E1. rewrite bind_assoc, bind_gets, Ha, bind_ret in E1.
  destruct (N.eqb_spec (a_rest a) 0) as [E0|E0].
  - injection E1 as <- <-. injection H as <- <-. auto.
  - rewrite bind_gets in E1. mstep E1 as u s2 E2; try discriminate. mstep E1 as t2 s3 E3; try discriminate.
    rewrite bind_modify in E1. injection E1 as <- <-.
    mstep H as v s4 E4; try discriminate. injection H as <- <-. split; [lia|].
    pose proof (steps_elim _ _ _ _ _ _ (load_next_impl_counts _ _ _ _ _ _) E4 ltac:(discriminate)) as C.
    unfold counts in C. cbn [p_attrs set_attrs] in C. destruct (p_attrs s4) as [a'|]; [|tauto].
    exists a'. split; [reflexivity|]. cbn in C. destruct C as [C1 C2]. split; [exact C1|]. rewrite C2. lia.
Qed.

(** A load on a running parser: [Some] exactly when attributes remain, and then the
    remaining count goes down by one; [None] exactly when none remain, and then nothing at
    all changes (in particular the stream is not touched). *)
Theorem C16_load_step : forall O (o : op O) s a r s', is_load o = true ->
  p_health s = Running -> p_attrs s = Some a -> run_op o s = (Ok r, s') ->
  p_health s' = Running /\
  ((exists v, r = BAttr (Some v) /\ (1 <= a_rest a)%N /\
     exists a', p_attrs s' = Some a' /\ a_total a' = a_total a /\ (a_rest a' + 1 = a_rest a)%N)
   \/ (r = BAttr None /\ a_rest a = 0%N /\ s' = s)).
Proof.
  intros O o s a r s' Ho Hh Ha H. apply run_op_shape in H; [|discriminate].
  assert (G : exists b l r0, load_next_gen b l s = (r0, s') /\
          match r0 with Ok v => r = @BAttr O v | Err e => False | Panic => False end).
  { destruct o as [|l|l|]; try discriminate; cbn [op_shape] in H; rewrite Ha in H; destruct H as (r0 & H1 & H2); do 3 eexists; (split; [exact H1|]); destruct r0; congruence || tauto. }
  destruct G as (b & l & r0 & G1 & G2). destruct r0 as [v|e|]; [|tauto|tauto]. subst r.
  apply load_next_shape in G1; [|discriminate]. rewrite Hh in G1. destruct G1 as (a0 & Ea & r1 & s1 & Eb & _ & -> & ->).
  rewrite Ha in Ea. injection Ea as <-.
  pose proof (load_body_quietl _ _ _ _ _ _ _ _ Eb ltac:(discriminate)) as [(_ & Q & _) _]. split; [congruence|].
  eapply load_body_counts in Eb; [|exact Ha]. destruct v as [v|]; [left|right].
  - exists v. split; [reflexivity|]. exact Eb.
  - split; [reflexivity|]. exact Eb.
Qed.

(** With nothing left a load always returns [None]. *)
Theorem C16_none_forever : forall O (o : op O) s a, is_load o = true ->
  p_health s = Running -> p_attrs s = Some a -> a_rest a = 0%N -> run_op o s = (Ok (BAttr None), s).
Proof.
  intros O o s a Ho Hh Ha H0. destruct o as [|l|l|]; try discriminate; cbn [run_op]; rewrite bind_gets, Ha;
    unfold load_next, load_next_buffered, load_next_gen, do_with_health_check, ensure_continuable, bind, try_, get_attrs, gets, read_next_attr_type, bind, get_attrs, gets;
    rewrite Hh, Ha; cbn; rewrite Ha; cbn; rewrite H0; reflexivity.
Qed.

(** A node starts with all its attributes unread. *)
Theorem C16_start_counts : forall O s name s',
  run_op (@ONext O) s = (Ok (BEvent (EvStart name)), s') ->
  exists n a, current_node s' = Some n /\ p_attrs s' = Some a /\ p_health s' = Running /\
    a_total a = sn_attrs n /\ a_rest a = sn_attrs n /\ sn_name n = name.
Proof.
  intros O s name s' H. apply run_op_shape in H; [|discriminate]. cbn [op_shape] in H.
  destruct H as (r0 & s1 & Hn & H). destruct r0 as [e|e|]; [|destruct H; discriminate|tauto].
  destruct H as [[= <-] (n & rest & Es & ->)]. apply next_event_shape in Hn; [|discriminate].
  change (p_health (set_attrs None s)) with (p_health s) in Hn.
  destruct (p_health s) eqn:Eh; [|destruct Hn; discriminate|destruct Hn; discriminate].
  destruct Hn as (_ & r1 & s2 & Hp & -> & -> & n' & rest' & Es' & Enm).
  cbn [p_stack set_last] in Es. rewrite Es' in Es. injection Es as -> ->.
  exists n. eexists. unfold current_node. cbn [p_stack set_attrs set_last p_attrs]. rewrite Es'. split; [reflexivity|].
  split; [reflexivity|]. split; [|auto].
  apply impl_path_shape in Hp. destruct Hp as (m & s4 & [(_ & Qh & _) _] & -> & _). cbn [p_health set_attrs set_last].
  cbn [p_health set_attrs] in Qh. rewrite Eh in Qh. unfold push, count_child. destruct (p_stack s4); exact Qh.
Qed.

(** The whole sequence: [k] successful loads give [Some] for the first [rest] of them and
    [None] for all others. *)
Definition gives_attribute {O} (r : res perr (obs O)) : option bool :=
  match r with Ok (BAttr (Some _)) => Some true | Ok (BAttr None) => Some false | _ => None end.
Definition is_ok {E A} (r : res E A) : bool := match r with Ok _ => true | _ => false end.

Theorem C16_load_sequence : forall O (ls : list (op O)) s a rs s',
  forallb is_load ls = true -> p_health s = Running -> p_attrs s = Some a ->
  run_ops ls s = (rs, s') -> forallb is_ok rs = true ->
  map gives_attribute rs =
    repeat (Some true) (Nat.min (length ls) (N.to_nat (a_rest a))) ++
    repeat (Some false) (length ls - N.to_nat (a_rest a)) /\
  exists a', p_attrs s' = Some a' /\ a_total a' = a_total a /\ a_rest a' = (a_rest a - lenN ls)%N.
Proof.
  intros O ls. induction ls as [|o ls IH]; intros s a rs s' Hl Hh Ha Hr Hok.
  - injection Hr as <- <-. cbn. split; [reflexivity|]. exists a. split; [exact Ha|]. split; [reflexivity|]. change (lenN []) with 0%N. lia.
  - cbn in Hl. apply andb_true_iff in Hl. destruct Hl as [Hl1 Hl2]. cbn [run_ops] in Hr.
    destruct (run_op o s) as [r s1] eqn:E1. destruct r as [v|e|].
    2:{ destruct (run_ops ls s1) as [rs1 s2]. injection Hr as <- <-. discriminate. }
    2:{ injection Hr as <- <-. discriminate. }
    destruct (run_ops ls s1) as [rs1 s2] eqn:E2. injection Hr as <- <-. cbn in Hok.
    destruct (C16_load_step O o s a v s1 Hl1 Hh Ha E1) as [Hh1 [(w & -> & Hge & a1 & Ha1 & Ht & Hrest)|(-> & H0 & ->)]].
    + destruct (IH s1 a1 rs1 s2 Hl2 Hh1 Ha1 E2 Hok) as [Hm (a2 & Ha2 & Ht2 & Hr2)].
      split.
      * cbn [map gives_attribute length]. rewrite Hm. replace (N.to_nat (a_rest a)) with (S (N.to_nat (a_rest a1))) by lia. reflexivity.
      * exists a2. split; [exact Ha2|]. split; [congruence|]. rewrite lenN_cons. lia.
    + destruct (IH s a rs1 s2 Hl2 Hh Ha E2 Hok) as [Hm (a2 & Ha2 & Ht2 & Hr2)]. rewrite H0 in *.
      split.
      * cbn [map gives_attribute length]. rewrite Hm. replace (N.to_nat 0) with 0%nat by reflexivity. rewrite !Nat.min_0_r, !Nat.sub_0_r. reflexivity.
      * exists a2. split; [exact Ha2|]. split; [congruence|]. rewrite lenN_cons. lia.
Qed.

End WithEnv.

(** ** Concrete cases *)

(** C08: a 7.5 document whose first node claims 2^64-1 bytes of attributes panics when
    overflow checks are on... *)
Definition huge_attrs : list byte :=
  magic ++ le_enc 4 7500 ++ le_enc 8 1000 ++ le_enc 8 1 ++ le_enc 8 (2 ^ 64 - 1) ++ [x01] ++ s_a ++ zeros 30.
Theorem C08_overflow_refuted :
  exists p, opened huge_attrs [] [] true None p /\
    fst (run_op (env:=checked) (@ONext aval) p) = Panic.
Proof.
  unfold opened. eexists. split.
  - eexists. split; [vm_compute; reflexivity|reflexivity].
  - vm_compute. reflexivity.
Qed.
(** ... and the same history is fine in a release build. *)
Example no_panic_example :
  exists p, opened huge_attrs [] [] true None p /\ (lenN huge_attrs <= 2 ^ 63)%N /\
    ovf_checks (Env:=release) = false /\
    nth_error (fst (run_ops (env:=release) [@ONext aval; ONext] p)) 0 = Some (Ok (BEvent (EvStart s_a))) /\
    no_panic (fst (run_ops (env:=release) [@ONext aval; ONext] p)).
Proof.
  unfold opened. eexists. split.
  - eexists. split; [vm_compute; reflexivity|reflexivity].
  - split; [vm_compute; discriminate|]. split; [reflexivity|]. split; vm_compute; reflexivity.
Qed.

(** C11: a childless node with an attribute and a marker, then a node without attributes
    and without a marker. *)
Definition odd_markers : list byte :=
  magic ++ le_enc 4 7400 ++
  le_enc 4 56 ++ le_enc 4 1 ++ le_enc 4 2 ++ [x01] ++ s_a ++ [x43; x59] ++ zeros 13 ++
  le_enc 4 70 ++ le_enc 4 0 ++ le_enc 4 0 ++ [x01] ++ s_b.
Example markers_example :
  exists p rs s, opened odd_markers [] [] true None p /\
    run_ops (env:=release) [@ONext aval; ONext; ONext; ONext] p = (rs, s) /\
    rs = [Ok (BEvent (EvStart s_a)); Ok (BEvent EvEnd); Ok (BEvent (EvStart s_b)); Ok (BEvent EvEnd)] /\
    map fst (p_log s) = [MissingNodeEndMarker; ExtraNodeEndMarker].
Proof.
  unfold opened. do 3 eexists. split.
  - eexists. split; [vm_compute; reflexivity|reflexivity].
  - split; [vm_compute; reflexivity|]. split; reflexivity.
Qed.

(** C12: a node whose recorded end lies before the end of its own header. *)
Definition backward_end : list byte :=
  magic ++ le_enc 4 7400 ++ le_enc 4 1 ++ le_enc 4 0 ++ le_enc 4 0 ++ [x01] ++ s_a ++ zeros 30.
Theorem C12_skip_panics_refuted :
  exists p rs s, opened backward_end [] [] true None p /\
    run_ops (env:=release) [@ONext aval] p = (rs, s) /\ rs = [Ok (BEvent (EvStart s_a))] /\
    fst (run_op (env:=release) (@OSkip aval) s) = Panic.
Proof.
  unfold opened. do 3 eexists. split.
  - eexists. split; [vm_compute; reflexivity|reflexivity].
  - split; [vm_compute; reflexivity|]. split; [reflexivity|]. vm_compute. reflexivity.
Qed.

(** C09: the sample document has 9 events, well below the bound. *)
Example bound_example :
  exists p rs s, opened (sample_doc 7400) [] [] true None p /\
    run_ops (env:=release) whole_ops p = (rs, s) /\ no_panic rs /\
    successes (combine whole_ops rs) = 9%N /\
    (2 * ((lenN (sample_doc 7400) - 27) / 13) + 1)%N = 51%N.
Proof.
  unfold opened. do 3 eexists. split.
  - eexists. split; [vm_compute; reflexivity|reflexivity].
  - split; [vm_compute; reflexivity|]. vm_compute. repeat split; reflexivity.
Qed.

(** C16: two attributes, three loads. *)
Example counts_example :
  exists p s a rs s', opened (sample_doc 7400) [] [] true None p /\
    run_op (env:=release) (@ONext aval) p = (Ok (BEvent (EvStart s_a)), s) /\
    p_attrs s = Some a /\ a_rest a = 2%N /\ p_health s = Running /\
    run_ops (env:=release) [ld; ld; ld] s = (rs, s') /\ forallb is_ok rs = true /\
    map gives_attribute rs = [Some true; Some true; Some false].
Proof.
  unfold opened. do 5 eexists. split.
  - eexists. split; [vm_compute; reflexivity|reflexivity].
  - split; [vm_compute; reflexivity|]. split; [vm_compute; reflexivity|]. split; [reflexivity|]. split; [reflexivity|].
    split; [vm_compute; reflexivity|]. split; reflexivity.
Qed.

Print Assumptions C08_no_panic.
Print Assumptions C08_no_panic_run.
Print Assumptions C08_open_no_panic.
Print Assumptions C08_overflow_refuted.
Print Assumptions C09_event_count_bound.
Print Assumptions C11_end_marker_warnings.
Print Assumptions C12_skip_panics_iff.
Print Assumptions C12_skip_panics_refuted.
Print Assumptions C16_load_step.
Print Assumptions C16_none_forever.
Print Assumptions C16_start_counts.
Print Assumptions C16_load_sequence.
