(** The possible paths through each parser operation. *)
Require Import Coq.Lists.List Coq.NArith.NArith Coq.ZArith.ZArith Coq.Bool.Bool Coq.micromega.Lia.
Require Import ZifyBool ZifyNat ZifyN.
Require Import Verif.Base Verif.BaseFacts Verif.Utf8 Verif.Types Verif.Io Verif.IoFacts Verif.Parser Verif.MonadFacts Verif.ParserSteps.
Import ListNotations.
Ltac Zify.zify_post_hook ::= Z.div_mod_to_equations.

Section WithEnv.
Context {env : Env}.

Definition rpos (s : pstate) : N := r_pos (p_rd s).

Definition warn_here (w : warning) : M unit := let* p := position in warn w p.

Definition missing_marker (s : pstate) (n : started) : bool :=
  match p_last s with Some KEnd => true | _ => false end || (sn_attrs n =? 0)%N.
Definition extra_marker (n : started) : bool :=
  negb (sn_attrs n =? 0)%N && (sn_kids n =? 0)%N.

(** Where the header of the next node is read: [s1] is the state before the header. *)
Definition at_header (s s1 : pstate) : Prop :=
  skip_unread_attributes s = (Ok tt, s1) /\
  forall n, current_node s1 = Some n -> (rpos s1 < sn_end n)%N.

Inductive impl_path (s : pstate) : res perr ekind -> pstate -> Prop :=
| IP_skip : forall e s1, skip_unread_attributes s = (Err e, s1) -> impl_path s (Err e) s1
| IP_over : forall s1 n,
    skip_unread_attributes s = (Ok tt, s1) -> current_node s1 = Some n -> (sn_end n < rpos s1)%N ->
    impl_path s (Err (err_from (EData (NodeLengthMismatch (sn_end n) None)))) s1
| IP_unmarked : forall s1 n s2,
    skip_unread_attributes s = (Ok tt, s1) -> current_node s1 = Some n -> sn_end n = rpos s1 ->
    when (missing_marker s1 n) (warn_here MissingNodeEndMarker) s1 = (Ok tt, s2) ->
    impl_path s (Ok KEnd) (pop s2)
| IP_unmarked_err : forall s1 n e s2,
    skip_unread_attributes s = (Ok tt, s1) -> current_node s1 = Some n -> sn_end n = rpos s1 ->
    when (missing_marker s1 n) (warn_here MissingNodeEndMarker) s1 = (Err e, s2) ->
    impl_path s (Err e) s2
| IP_header : forall s1 e s2, at_header s s1 ->
    read_node_header s1 = (Err e, s2) -> impl_path s (Err e) s2
| IP_mismatch : forall s1 h s2 c, at_header s s1 ->
    read_node_header s1 = (Ok h, s2) -> is_node_end h = true -> current_node s2 = Some c ->
    sn_end c <> rpos s2 ->
    impl_path s (Err (err_from (EData (NodeLengthMismatch (sn_end c) (Some (rpos s2)))))) (pop s2)
| IP_marked_err : forall s1 h s2 c e s3, at_header s s1 ->
    read_node_header s1 = (Ok h, s2) -> is_node_end h = true -> current_node s2 = Some c ->
    sn_end c = rpos s2 ->
    when (extra_marker c) (warn_here ExtraNodeEndMarker) (pop s2) = (Err e, s3) ->
    impl_path s (Err e) s3
| IP_marked : forall s1 h s2 c s3, at_header s s1 ->
    read_node_header s1 = (Ok h, s2) -> is_node_end h = true -> current_node s2 = Some c ->
    sn_end c = rpos s2 ->
    when (extra_marker c) (warn_here ExtraNodeEndMarker) (pop s2) = (Ok tt, s3) ->
    impl_path s (Ok KEnd) s3
| IP_fbx_end : forall s1 h s2, at_header s s1 ->
    read_node_header s1 = (Ok h, s2) -> is_node_end h = true -> current_node s2 = None ->
    impl_path s (Ok KEndFbx) (pop s2)
| IP_start : forall s1 h s2 r s3, at_header s s1 ->
    read_node_header s1 = (Ok h, s2) -> is_node_end h = false ->
    start_node (rpos s1) h s2 = (r, s3) -> r <> Panic -> impl_path s r s3.

Lemma next_event_impl_path : forall s r s', next_event_impl s = (r, s') -> r <> Panic ->
  p_health s = Running /\ p_last s <> Some KEndFbx /\ impl_path s r s'.
Proof.
  intros s r s' H Hp. unfold next_event_impl in H. rewrite bind_gets in H.
  destruct (p_health s) eqn:Eh; cbn [assert_] in H; try (injection H as <- <-; congruence).
  rewrite bind_ret, bind_gets in H.
  assert (El : p_last s <> Some KEndFbx).
  { intros E. rewrite E in H. injection H as <- <-. congruence. }
  split; [reflexivity|]. split; [exact El|].
  assert (Ea : assert_ (match p_last s with Some KEndFbx => false | _ => true end) = ret tt).
  { destruct (p_last s) as [[| |]|]; try reflexivity. congruence. }
  rewrite Ea, bind_ret in H. clear Ea.
  mstep H as [] s1 E1; try congruence; [|subst; apply IP_skip; exact E1].
  unfold reader_pos in H. rewrite bind_gets, bind_gets in H.
  change (r_pos (p_rd s1)) with (rpos s1) in H.
  set (after := (bind read_node_header _)) in H.
  assert (Hafter : after s1 = (r, s') -> (forall n, current_node s1 = Some n -> (rpos s1 < sn_end n)%N) -> impl_path s r s').
  { clear H. intros H Hn. assert (AH : at_header s s1) by (split; auto). subst after.
    mstep H as h s2 E2; try congruence; [|subst; eapply IP_header; eauto].
    unfold reader_pos in H. rewrite bind_gets in H. change (r_pos (p_rd s2)) with (rpos s2) in H.
    destruct (is_node_end h) eqn:Ee.
    - rewrite bind_gets, bind_modify in H. destruct (current_node s2) as [c|] eqn:Ec.
      + destruct (sn_end c =? rpos s2)%N eqn:Ep; cbn [negb] in H.
        * apply N.eqb_eq in Ep. mstep H as [] s3 E3; try congruence.
          -- injection H as <- <-. eapply IP_marked; eauto.
          -- subst. eapply IP_marked_err; eauto.
        * apply N.eqb_neq in Ep. injection H as <- <-. eapply IP_mismatch; eauto.
      + injection H as <- <-. eapply IP_fbx_end; eauto.
    - eapply IP_start; eauto. }
  destruct (current_node s1) as [n|] eqn:Ec.
  - destruct (sn_end n <? rpos s1)%N eqn:Elt.
    + injection H as <- <-. eapply IP_over; eauto. apply N.ltb_lt in Elt. exact Elt.
    + apply N.ltb_ge in Elt. destruct (sn_end n =? rpos s1)%N eqn:Eq.
      * apply N.eqb_eq in Eq. rewrite bind_gets in H.
        mstep H as [] s2 E2; try congruence.
        -- rewrite bind_modify in H. injection H as <- <-. eapply IP_unmarked; eauto.
        -- subst. eapply IP_unmarked_err; eauto.
      * apply N.eqb_neq in Eq. apply Hafter; [exact H|]. intros n' [= <-]. lia.
  - apply Hafter; [exact H|]. intros n' [=].
Qed.

Lemma warn_here_quiet : forall w, steps quieta (warn_here w).
Proof.
  intros w. unfold warn_here. apply (st_bind _ quieta_pre); [apply (st_position _ quieta_pre) | intros; apply warn_quiet].
Qed.
Lemma when_warn_quiet : forall b w, steps quieta (when b (warn_here w)).
Proof. intros. apply (st_when _ quieta_pre). apply warn_here_quiet. Qed.

(** What [start_node] does. *)
Lemma start_node_shape : forall start h s r s', start_node start h s = (r, s') -> r <> Panic ->
  match r with
  | Ok k => k = KStart /\ exists n s1, quieta s s1 /\ s' = push n (count_child s1) /\
      sn_kids n = 0%N /\ sn_start n = start /\ sn_end n = nh_end h /\ sn_attrs n = nh_attrs h /\
      utf8_valid (sn_name n) = true /\ lenN (sn_name n) = bN (nh_nlen h) /\
      (sn_attrs_end n < pow2_64)%N /\
      sn_attrs_end n = ((rpos s1 + nh_alen h) mod pow2_64)%N
  | Err _ => quieta s s'
  | Panic => False
  end.
Proof.
  intros start h s r s' H Hp. unfold start_node in H.
  assert (Q : steps quieta (when (bN (nh_nlen h) =? 0)%N (
    let* pos := position in
    let* bp := reader_pos in
    let* idx := gets (fun s => match p_stack s with [] => p_top s | n :: _ => sn_kids n end) in
    warn EmptyNodeName
         (mkPos bp start (node_path pos ++ [(idx, [])]) (attribute_index pos))))).
  { repeat first [apply warn_quiet | apply reader_pos_quiet | steps_step quieta_pre]. }
  mstep H as u s1 E1; try congruence; [|subst; exact (steps_elim _ _ _ _ _ _ Q E1 ltac:(discriminate))].
  assert (Q1 := steps_elim _ _ _ _ _ _ Q E1 ltac:(discriminate)). clear Q.
  mstep H as name s2 E2; try congruence.
  2:{ subst. eapply quieta_pre; [exact Q1|]. eapply steps_elim; [apply read_exact_quiet | exact E2 | discriminate]. }
  assert (Q2 := steps_elim _ _ _ _ _ _ (read_exact_quiet _) E2 ltac:(discriminate)).
  assert (Q12 := proj2 quieta_pre _ _ _ Q1 Q2).
  assert (Ln : length name = N.to_nat (bN (nh_nlen h))).
  { unfold read_exact, try_read, rdop, bind in E2.
    destruct (rd_exact _ (p_rd s1)) as [[[e|got]|] r'] eqn:Er; try discriminate.
    injection E2 as <- <-. apply rd_exact_spec in Er. apply Er. }
  destruct (utf8_valid name) eqn:Eu.
  2:{ injection H as <- <-. exact Q12. }
  unfold reader_pos in H. rewrite bind_gets in H.
  unfold add_u64 in H.
  destruct (r_pos (p_rd s2) + nh_alen h <? pow2_64)%N eqn:El.
  - rewrite bind_ret, bind_modify, bind_modify in H. injection H as <- <-. split; [reflexivity|].
    apply N.ltb_lt in El.
    do 2 eexists. split; [exact Q12|]. split; [reflexivity|]. cbn.
    repeat split; auto. { unfold lenN. lia. }
    unfold rpos. rewrite N.mod_small; auto.
  - destruct ovf_checks.
    + injection H as <- <-. congruence.
    + rewrite bind_ret, bind_modify, bind_modify in H. injection H as <- <-. split; [reflexivity|].
      do 2 eexists. split; [exact Q12|]. split; [reflexivity|]. cbn.
      repeat split; auto. { unfold lenN. lia. }
      apply N.mod_lt. discriminate.
Qed.

(** Shape of [next_event_impl]. *)
Lemma quieta_pop_nil : forall s, p_stack s = [] -> quieta s (pop s).
Proof.
  intros s H. unfold pop. rewrite H. unfold quieta, quiet. cbn. rewrite H.
  repeat split; auto; [exists []; reflexivity | apply rd_fwd_refl].
Qed.

Definition popped (s s' : pstate) : Prop :=
  exists n rest s1, p_stack s = n :: rest /\ quieta s s1 /\ quieta (pop s1) s'.

Lemma impl_path_shape : forall s r s', impl_path s r s' ->
  match r with
  | Ok KStart => exists n s1, quieta s s1 /\ s' = push n (count_child s1) /\ sn_kids n = 0%N
  | Ok KEnd => popped s s'
  | Ok KEndFbx => p_stack s = [] /\ quieta s s'
  | Err _ => quieta s s' \/ popped s s'
  | Panic => False
  end.
Proof.
  intros s r s' H.
  assert (SK : forall r s1, skip_unread_attributes s = (r, s1) -> r <> Panic -> quieta s s1).
  { intros. eapply steps_elim; [apply skip_unread_quiet | eauto | auto]. }
  assert (ST : forall a b, quieta a b -> p_stack b = p_stack a).
  { intros a b [(_ & _ & E & _) _]. exact E. }
  assert (HD : forall s1 r s2, at_header s s1 -> read_node_header s1 = (r, s2) -> r <> Panic -> quieta s s2).
  { intros s1 r' s2 [A _] E Hp. eapply quieta_pre; [eapply SK; [exact A | discriminate]|].
    eapply steps_elim; [apply read_node_header_quiet | exact E | exact Hp]. }
  assert (CN : forall a b c, quieta a b -> current_node b = Some c -> exists rest, p_stack a = c :: rest).
  { intros a b c Q E. unfold current_node in E. rewrite (ST _ _ Q) in E.
    destruct (p_stack a) as [|x t]; [discriminate|]. injection E as ->. eauto. }
  destruct H.
  - left. eapply SK; [eassumption | discriminate].
  - left. eapply SK; [eassumption | discriminate].
  - assert (Q : quieta s s1) by (eapply SK; [eassumption | discriminate]).
    destruct (CN _ _ _ Q H0) as [rest Er].
    assert (Q2 : quieta s1 s2) by (eapply steps_elim; [apply when_warn_quiet | eassumption | discriminate]).
    exists n, rest, s2. repeat split; try apply quieta_pre; auto; try (eapply quieta_pre; eassumption).
  - left. eapply quieta_pre; [eapply SK; [eassumption | discriminate]|].
    eapply steps_elim; [apply when_warn_quiet | eassumption | discriminate].
  - left. eapply HD; [eassumption | eassumption | discriminate].
  - right. assert (Q : quieta s s2) by (eapply HD; [eassumption | eassumption | discriminate]).
    destruct (CN _ _ _ Q H2) as [rest Er]. exists c, rest, s2. repeat split; try apply quieta_pre; auto; apply Q.
  - right. assert (Q : quieta s s2) by (eapply HD; [eassumption | eassumption | discriminate]).
    destruct (CN _ _ _ Q H2) as [rest Er]. exists c, rest, s2. split; [exact Er|]. split; [exact Q|].
    eapply steps_elim; [apply when_warn_quiet | eassumption | discriminate].
  - assert (Q : quieta s s2) by (eapply HD; [eassumption | eassumption | discriminate]).
    destruct (CN _ _ _ Q H2) as [rest Er]. exists c, rest, s2. split; [exact Er|]. split; [exact Q|].
    eapply steps_elim; [apply when_warn_quiet | eassumption | discriminate].
  - assert (Q : quieta s s2) by (eapply HD; [eassumption | eassumption | discriminate]).
    assert (E : p_stack s2 = []). { unfold current_node in H2. destruct (p_stack s2); [reflexivity | discriminate]. }
    split; [rewrite <- (ST _ _ Q); exact E|]. eapply quieta_pre; [exact Q | apply quieta_pop_nil; exact E].
  - assert (Q : quieta s s2) by (eapply HD; [eassumption | eassumption | discriminate]).
    assert (S := start_node_shape _ _ _ _ _ H2 H3). destruct r as [k|e|]; [| |congruence].
    + destruct S as (-> & n & s4 & Q4 & E & K & _). exists n, s4. split; [eapply quieta_pre; eauto|]. auto.
    + left. eapply quieta_pre; eauto.
Qed.

(** Shape of [next_event]. *)
Lemma position_ok : forall s r s', position s = (r, s') -> r <> Panic -> s' = s /\ exists p, r = Ok p /\ position_of s = Some p.
Proof.
  intros s r s' H Hp. unfold position in H. destruct (position_of s) as [p|]; injection H as <- <-; [eauto | congruence].
Qed.

Lemma try_inv : forall A (m : M A) s r s', try_ m s = (r, s') -> r <> Panic ->
  exists r0, m s = (r0, s') /\ r0 <> Panic /\ r = Ok (match r0 with Ok a => inr a | Err e => inl e | Panic => inl (err_from (EIo IoEof)) end).
Proof.
  intros A m s r s' H Hp. unfold try_ in H. destruct (m s) as [[a|e|] s1]; injection H as <- <-.
  - exists (Ok a). repeat split; discriminate.
  - exists (Err e). repeat split; discriminate.
  - congruence.
Qed.

Lemma next_event_shape : forall s r s', next_event s = (r, s') -> r <> Panic ->
  match p_health s with
  | Finished => s' = s /\ r = Err (mkErr (EOperation AlreadyFinished) None)
  | Aborted p => s' = s /\ r = Err (mkErr (EOperation AlreadyAborted) (Some p))
  | Running =>
      p_last s <> Some KEndFbx /\
      exists r0 s1, impl_path s r0 s1 /\
      match r with
      | Ok (EvStart name) => r0 = Ok KStart /\ s' = set_last (Some KStart) s1 /\
          exists n rest, p_stack s1 = n :: rest /\ sn_name n = name
      | Ok EvEnd => r0 = Ok KEnd /\ s' = set_last (Some KEnd) s1
      | Ok (EvEndFbx f) => r0 = Ok KEndFbx /\
          read_footer (set_last (Some KEndFbx) (set_health Finished s1)) =
            (match f with inr f => Ok f | inl e => Err e end, s')
      | Err e => exists e0 p, r0 = Err e0 /\ position_of s1 = Some p /\
          s' = set_health (Aborted p) s1 /\ e = and_position e0 p
      | Panic => False
      end
  end.
Proof.
  intros s r s' H Hp. unfold next_event in H. rewrite bind_gets in H.
  destruct (p_health s) eqn:Eh.
  - unfold bind at 1 in H. unfold ensure_continuable in H at 1. rewrite Eh in H.
    mstep H as x s1 E1; try congruence.
    2:{ apply try_inv in E1; [|discriminate]. destruct E1 as (r0 & _ & _ & [=]). }
    apply try_inv in E1; [|discriminate]. destruct E1 as (r0 & Ei & Hr0 & [= Ex]).
    apply next_event_impl_path in Ei; [|exact Hr0]. destruct Ei as (_ & El & Ei).
    split; [exact El|]. exists r0, s1. split; [exact Ei|].
    destruct r0 as [k|e0|]; [| |congruence]; subst x.
    + pose proof (impl_path_shape _ _ _ Ei) as Sh.
      destruct k; cbn [ekind_eqb when] in H.
      * rewrite bind_ret, bind_modify, bind_gets in H. mstep H as [] s3 E3; try congruence.
        2:{ unfold assert_ in E3. destruct (_ =? _)%N; discriminate. }
        unfold assert_ in E3. destruct (_ =? _)%N; [injection E3 as <-|discriminate].
        cbn [p_last set_last ekind_eqb assert_] in H. rewrite bind_gets in H. cbn [p_last set_last ekind_eqb assert_] in H.
        rewrite bind_ret, bind_gets in H. destruct Sh as (n & s4 & _ & -> & _).
        cbn in H. injection H as <- <-. split; [reflexivity|]. split; [reflexivity|].
        cbn. eauto.
      * rewrite bind_ret, bind_modify, bind_gets in H. mstep H as [] s3 E3; try congruence.
        2:{ unfold assert_ in E3. destruct (_ =? _)%N; discriminate. }
        unfold assert_ in E3. destruct (_ =? _)%N; [injection E3 as <-|discriminate].
        rewrite bind_gets in H. cbn [p_last set_last ekind_eqb assert_] in H.
        rewrite bind_ret in H. injection H as <- <-. auto.
      * rewrite bind_modify, bind_modify, bind_gets in H. mstep H as [] s3 E3; try congruence.
        2:{ unfold assert_ in E3. destruct (_ && _)%bool; discriminate. }
        unfold assert_ in E3. destruct (_ && _)%bool; [injection E3 as <-|discriminate].
        rewrite bind_gets in H. cbn [p_last set_last ekind_eqb assert_] in H.
        rewrite bind_ret in H. mstep H as x s2 E2; try congruence.
        2:{ apply try_inv in E2; [|discriminate]. destruct E2 as (r1 & _ & _ & [=]). }
        injection H as <- <-. apply try_inv in E2; [|discriminate]. destruct E2 as (r1 & Er & Hr1 & [= ->]).
        split; [reflexivity|]. rewrite Er. destruct r1; [reflexivity | reflexivity | congruence].
    + mstep H as p s2 E2; try congruence.
      2:{ apply position_ok in E2; [|discriminate]. destruct E2 as (_ & p & [=] & _). }
      apply position_ok in E2; [|discriminate]. destruct E2 as (-> & p' & [= <-] & Epo).
      rewrite bind_modify in H. injection H as <- <-. exists e0, p. auto.
  - unfold bind at 1 in H. unfold ensure_continuable in H. rewrite Eh in H. injection H as <- <-. auto.
  - unfold bind at 1 in H. unfold ensure_continuable in H. rewrite Eh in H. injection H as <- <-. auto.
Qed.

(** Shape of [load_next] / [load_next_buffered]. *)
Lemma load_next_shape : forall O b (ld : loader O) s r s', load_next_gen b ld s = (r, s') -> r <> Panic ->
  match p_health s with
  | Finished => s' = s /\ r = Err (mkErr (EOperation AlreadyFinished) None)
  | Aborted p => s' = s /\ r = Err (mkErr (EOperation AlreadyAborted) (Some p))
  | Running =>
      exists a, p_attrs s = Some a /\
      exists r0 s1, load_body b ld (a_next a) (a_total a - a_rest a) s = (r0, s1) /\ r0 <> Panic /\
      match r with
      | Ok v => r0 = Ok v /\ s' = s1
      | Err e => exists e0 p0, r0 = Err e0 /\ position_of s1 = Some p0 /\
          let p := mkPos (byte_pos p0) (a_next a) (node_path p0) (Some (a_total a - a_rest a)%N) in
          s' = set_health (Aborted p) s1 /\ e = and_position e0 p
      | Panic => False
      end
  end.
Proof.
  intros O b ld s r s' H Hp. unfold load_next_gen, do_with_health_check in H.
  destruct (p_health s) eqn:Eh.
  - unfold bind at 1 in H. unfold ensure_continuable in H at 1. rewrite Eh in H.
    unfold get_attrs in H. rewrite bind_assoc, bind_gets in H.
    destruct (p_attrs s) as [a|] eqn:Ea; [|injection H as <- <-; congruence].
    rewrite bind_ret in H. exists a. split; [reflexivity|].
    mstep H as x s1 E1; try congruence.
    2:{ apply try_inv in E1; [|discriminate]. destruct E1 as (r0 & _ & _ & [=]). }
    apply try_inv in E1; [|discriminate]. destruct E1 as (r0 & Ei & Hr0 & [= ->]).
    exists r0, s1. split; [exact Ei|]. split; [exact Hr0|]. destruct r0 as [v|e0|]; [| |congruence].
    + injection H as <- <-. auto.
    + unfold attr_position in H. rewrite bind_assoc in H. mstep H as p0 s2 E2; try congruence.
      2:{ apply position_ok in E2; [|discriminate]. destruct E2 as (_ & p & [=] & _). }
      apply position_ok in E2; [|discriminate]. destruct E2 as (-> & p' & [= <-] & Epo).
      rewrite bind_ret, bind_modify in H. injection H as <- <-. exists e0, p0. auto.
  - unfold bind at 1 in H. unfold ensure_continuable in H. rewrite Eh in H. injection H as <- <-. auto.
  - unfold bind at 1 in H. unfold ensure_continuable in H. rewrite Eh in H. injection H as <- <-. auto.
Qed.

(** Shape of [skip_current_node]. *)
Lemma skip_shape : forall s r s', skip_current_node s = (r, s') -> r <> Panic ->
  exists n rest, p_stack s = n :: rest /\
    m_skip_to (sn_end n) (set_last (Some KEnd) (pop s)) = (r, s').
Proof.
  intros s r s' H Hp. unfold skip_current_node in H. rewrite bind_gets in H.
  unfold current_node in H. destruct (p_stack s) as [|n rest]; cbn [hd_error] in H.
  - injection H as <- <-. congruence.
  - rewrite bind_modify, bind_modify in H. eauto.
Qed.

End WithEnv.
