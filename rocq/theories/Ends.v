(** The end of a document is reported only where the headers of the top-level nodes lead. *)
Require Import Coq.Lists.List Coq.NArith.NArith Coq.ZArith.ZArith Coq.Bool.Bool Coq.micromega.Lia.
Require Import Coq.Init.Byte.
Require Import ZifyBool ZifyNat ZifyN.
Require Import Verif.Base Verif.BaseFacts Verif.Utf8 Verif.Types Verif.Io Verif.IoFacts Verif.Parser Verif.MonadFacts Verif.ParserSteps
  Verif.ParserShape Verif.SpecHist Verif.ParserHist Verif.ParserPos Verif.ReadFacts Verif.PropsSafety Verif.PropsEvents Verif.WarnPos
  Verif.Spec Verif.SpecLayout Verif.Layout Verif.LayoutIn Verif.SpecErr Verif.SpecTruth Verif.Truth Verif.PropsTruth Verif.FooterFacts Verif.StoredFacts Verif.SpecCrash.
Import ListNotations.
Ltac Zify.zify_post_hook ::= Z.div_mod_to_equations.

Section WithEnv.
Context {env : Env}.
Context (data : list byte) (ver : N).

(** ** The footer *)
Lemma warn_same : forall b w p s s', when b (warn w p) s = (Ok tt, s') -> p_rd s' = p_rd s /\ p_ver s' = p_ver s.
Proof.
  intros b w p s s' H. destruct b; cbn [when] in H; [|injection H as <-; auto]. unfold warn in H.
  destruct (p_handler s) as [h|]; [destruct (h _)|]; try discriminate; injection H as <-; auto.
Qed.

Lemma footer_there : forall off s ft s', p_ver s = ver -> got data off [] s -> read_footer s = (Ok ft, s') ->
  exists f ext, foot_ok f /\ dropN off data = enc_footer ver f ++ ext /\ ft = footer_of ver f.
Proof.
  intros off s ft s' V G H. unfold read_footer in H. unfold reader_pos in H at 1. rewrite bind_gets in H.
  mstep H as u1 s1 E1; try discriminate. destruct (got_exact _ _ _ _ _ _ _ G E1) as (G1 & Lu1 & F1).
  unfold reader_pos in H at 1. rewrite bind_gets in H. mstep H as [] s2 E2; try discriminate. apply warn_same in E2. destruct E2 as [R2 V2].
  assert (G2 : got data off ([] ++ u1) s2) by (eapply got_same; eassumption).
  unfold reader_pos in H at 1. rewrite bind_gets in H. cbv zeta in H. mstep H as buf s3 E3; try discriminate.
  destruct (got_exact _ _ _ _ _ _ _ G2 E3) as (G3 & Lb & F3). cbn [app] in G3.
  assert (V3 : p_ver s3 = ver) by (rewrite F3; cbn [p_ver set_rd]; rewrite V2, F1; exact V).
  destruct (first_nonzero (skipn 128 buf)) as [k|] eqn:FN; [|discriminate].
  assert (K16 : (k < 16)%nat). { apply first_nonzero_lt in FN. rewrite skipn_length, Lb in FN. lia. }
  cbn zeta in H. rewrite (pad_of_k k K16) in H.
  replace (Nat.ltb k 16) with true in H by (symmetry; apply Nat.ltb_lt; exact K16). cbn [assert_] in H. rewrite bind_ret in H.
  replace (Nat.eqb (128 + k) (k + 128)) with true in H by (symmetry; apply Nat.eqb_eq; lia). cbn [assert_] in H. rewrite bind_ret in H.
  destruct (all_zero (slice 0 k buf)) eqn:Z1; cbn [negb] in H; [|discriminate].
  destruct (bytes_eqb (slice k (k + 4) buf) (zeros 4)) eqn:Z2; cbn [negb] in H; [|discriminate].
  rewrite bind_gets, V3 in H.
  destruct (le_dec (slice (k + 4) (k + 8) buf) =? ver)%N eqn:Z3; cbn [negb] in H; [|discriminate].
  destruct (all_zero (slice (k + 8) (k + 128) buf)) eqn:Z4; cbn [negb] in H; [|discriminate].
  assert (L3 : length (skipn (k + 128) buf) = (16 - k)%nat) by (rewrite skipn_length, Lb; lia). rewrite L3 in H.
  replace (16 - (16 - k))%nat with k in H by lia.
  mstep H as t s4 E4; try discriminate. destruct (got_exact _ _ _ _ _ _ _ G3 E4) as (G4 & Lt & F4).
  destruct (bytes_eqb (skipn (k + 128) buf ++ t) unknown3_expected) eqn:Z5; cbn [negb] in H; [|discriminate].
  mstep H as [] s5 E5; try discriminate. injection H as <- <-.
  apply bytes_eqb_eq in Z5. apply bytes_eqb_eq in Z2. apply N.eqb_eq in Z3.
  exists (mkFoot u1 k), (rem s4). cbn [ft_unknown1 ft_pad].
  assert (RB : buf ++ t = foot_tail ver k).
  { unfold foot_tail.
    assert (B : buf = slice 0 k buf ++ slice k (k + 4) buf ++ slice (k + 4) (k + 8) buf ++ slice (k + 8) (k + 128) buf ++ skipn (k + 128) buf).
    { rewrite !slice_cut by lia. reflexivity. }
    rewrite B at 1. rewrite <- !app_assoc, Z5. f_equal; [|f_equal; [exact Z2|f_equal; [|f_equal]]].
    - rewrite (all_zero_zeros _ Z1). f_equal. unfold slice. rewrite firstn_length, skipn_length, Lb. lia.
    - rewrite <- Z3. pose proof (le_enc_dec (slice (k + 4) (k + 8) buf)) as LD.
      replace (length (slice (k + 4) (k + 8) buf)) with 4%nat in LD; [symmetry; exact LD|].
      unfold slice. rewrite firstn_length, skipn_length, Lb. lia.
    - rewrite (all_zero_zeros _ Z4). f_equal. unfold slice. rewrite firstn_length, skipn_length, Lb. lia. }
  split; [split; assumption|]. split.
  - destruct G4 as [G4 _]. rewrite G4, <- (app_assoc u1), RB. unfold enc_footer, foot_tail. cbn [ft_unknown1 ft_pad]. reflexivity.
  - unfold footer_of. cbn [ft_unknown1 ft_pad]. rewrite Z2, Z3, Z5. reflexivity.
Qed.

(** ** Top-level nodes *)
Definition bottom_ok (n : started) (pos : N) : Prop :=
  top_level data ver (sn_start n) /\ exists claimed, header_at data ver (sn_start n) (sn_end n) (sn_attrs n) claimed (sn_name n) /\
    lay_header ver (sn_end n) (sn_attrs n) claimed (sn_name n) <> end_marker ver /\ (sn_start n + header_size ver + lenN (sn_name n) <= pos)%N.
Definition at_top (s : pstate) : Prop :=
  match p_stack s with [] => top_level data ver (rpos s) | n :: t => bottom_ok (last t n) (rpos s) end.
Definition led (s : pstate) : Prop := p_health s = Running -> at_top s /\ (p_stack s = [] -> p_attrs s = None).

Lemma bottom_later : forall n a b, bottom_ok n a -> (a <= b)%N -> bottom_ok n b.
Proof. intros n a b (H1 & c & H2 & H3 & H4) L. split; [exact H1|]. exists c. split; [exact H2|]. split; [exact H3|]. lia. Qed.
Lemma bottom_end : forall n, bottom_ok n (sn_end n) -> top_level data ver (sn_end n).
Proof. intros n (H1 & c & H2 & H3 & H4). eapply Top_next; eassumption. Qed.
Lemma quieta_rpos : forall s s', inv data ver s -> quieta s s' -> (rpos s <= rpos s')%N.
Proof. intros s s' _ [(_ & _ & _ & _ & _ & _ & _ & d & q & (_ & _ & M & _) & _) _]. unfold rpos. lia. Qed.

Lemma last_swap : forall (t : list started) m n, last (m :: t) n = last t m.
Proof. induction t as [|x t IH]; intros m n; [reflexivity|]. change (last (m :: x :: t) n) with (last (x :: t) n). rewrite !IH. reflexivity. Qed.

(** Leaving a node at its end. *)
Lemma at_top_pop : forall s s' n t, at_top s -> p_stack s = n :: t -> p_stack s' = t -> rpos s' = sn_end n -> (rpos s <= rpos s')%N -> at_top s'.
Proof.
  intros s s' n t A E E' P L. unfold at_top in *. rewrite E in A. rewrite E'. destruct t as [|m t].
  - cbn [last] in A. rewrite P in *. apply bottom_end. eapply bottom_later; eassumption.
  - rewrite last_swap in A. eapply bottom_later; [exact A|exact L].
Qed.

(** Entering a node. *)
Lemma at_top_push : forall s s1 s' n, at_top s -> p_stack s' = n :: p_stack (count_child s1) -> p_stack s1 = p_stack s ->
  (rpos s <= sn_start n)%N -> (sn_start n <= rpos s')%N -> (p_stack s = [] -> rpos s = sn_start n) -> (p_stack s = [] -> top_level data ver (sn_start n) -> bottom_ok n (rpos s')) -> at_top s'.
Proof.
  intros s s1 s' n A E1 E2 L1 L2 L3 B. unfold at_top in *. rewrite E1. unfold count_child. rewrite E2. destruct (p_stack s) as [|m t] eqn:Es; cbn [set_top set_stack p_stack].
  - rewrite E2. cbn [last]. apply B; [reflexivity|]. rewrite <- L3 by reflexivity. exact A.
  - rewrite last_swap. destruct t as [|x t].
    + cbn [last] in *. destruct A as (A1 & c & A2 & A3 & A4). split; [exact A1|]. exists c. cbn [sn_start sn_end sn_attrs sn_name]. split; [exact A2|]. split; [exact A3|]. lia.
    + rewrite last_swap in *. eapply bottom_later; [exact A|lia].
Qed.

Lemma impl_led : forall s r s', inv data ver s -> at_top s -> p_attrs s = None -> impl_path s r s' ->
  match r with
  | Ok KStart => at_top s' /\ p_stack s' <> []
  | Ok KEnd => at_top s' /\ p_attrs s' = None
  | Ok KEndFbx => exists off, top_level data ver off /\ at_offset data off (end_marker ver) /\ rpos s' = (off + header_size ver)%N
  | _ => True
  end.
Proof.
  intros s r s' I T Na H.
  assert (SK : forall s1, skip_unread_attributes s = (Ok tt, s1) -> inv data ver s1 /\ rpos s1 = off_of s /\ quieta s s1).
  { intros s1 E. split; [eapply skip_unread_inv; [exact I|exact E|discriminate]|]. split; [eapply skip_unread_pos; eassumption|].
    apply (steps_elim _ _ _ _ _ _ skip_unread_quiet E). discriminate. }
  destruct H; try exact Logic.I.
  - destruct (SK _ H) as (I1 & P1 & Q1). pose proof (warn_here_ok _ _ _ _ H2) as Q2. pose proof (warn_here_rpos _ _ _ _ H2) as R2.
    unfold current_node in H0. destruct Q1 as [(_ & _ & S1 & _) A1]. destruct Q2 as [(_ & _ & S2 & _) A2].
    destruct (p_stack s1) as [|m t] eqn:Es; [discriminate|]. injection H0 as ->. split; [|cbn; congruence].
    eapply at_top_pop with (s := s) (n := n) (t := t); [exact T|congruence|cbn; rewrite S2; reflexivity|change (rpos s2 = sn_end n); congruence|].
    change (rpos (pop s2)) with (rpos s2). rewrite R2, P1. unfold off_of. lia.
  - destruct H as [H Hn]. destruct (SK _ H) as (I1 & P1 & Q1). destruct (header_there _ _ _ _ _ I1 H0) as (I2 & _ & P2 & _ & _ & _ & _ & S2 & _).
    pose proof (warn_here_ok _ _ _ _ H4) as Q3. pose proof (warn_here_rpos _ _ _ _ H4) as R3. change (rpos (pop s2)) with (rpos s2) in R3.
    unfold current_node in H2. destruct Q1 as [(_ & _ & S1 & _) A1]. destruct Q3 as [(_ & _ & S3 & _) A3].
    pose proof (steps_elim _ _ _ _ _ _ read_node_header_quiet H0 ltac:(discriminate)) as [_ A2].
    destruct (p_stack s2) as [|m t] eqn:Es; [discriminate|]. injection H2 as ->. split; [|rewrite A3; cbn; congruence].
    eapply at_top_pop with (s := s) (n := c) (t := t); [exact T|congruence|rewrite S3; cbn; rewrite Es; reflexivity|congruence|].
    rewrite R3, P2, P1. unfold off_of. lia.
  - destruct H as [H Hn]. destruct (SK _ H) as (I1 & P1 & Q1). destruct (header_there _ _ _ _ _ I1 H0) as (I2 & _ & P2 & At & _ & _ & _ & S2 & _).
    destruct Q1 as [(_ & _ & S1 & _) _]. unfold current_node in H2. destruct (p_stack s2) eqn:Es; [|discriminate].
    exists (rpos s1). rewrite <- (header_marker _ _ H1). split; [|auto]. unfold at_top in T. rewrite <- S1, <- S2 in T.
    rewrite P1. unfold off_of, unread, current_node. rewrite <- S1, <- S2. cbn [hd_error]. rewrite N.add_0_r. exact T.
  - destruct H as [H Hn]. destruct (SK _ H) as (I1 & P1 & Q1). destruct (header_there _ _ _ _ _ I1 H0) as (_ & _ & P2 & _ & _ & _ & _ & S2 & _). destruct r as [k|e|]; try exact Logic.I.
    assert (k = KStart) as -> by (apply (start_node_shape _ _ _ _ _ H2 H3)). destruct Q1 as [(_ & _ & S1 & _) _].
    destruct (start_ok _ _ _ _ _ _ _ _ I1 H0 H1 eq_refl H2) as (I3 & n & i & C1 & C2 & C3 & C4 & C5 & C6 & C7).
    destruct (start_node_bytes _ _ _ _ _ H2) as (name & _ & _ & _ & _ & _ & _ & _ & N8 & _).
    unfold current_node in C1. rewrite N8 in C1. cbn [hd_error] in C1. injection C1 as En. split; [|rewrite N8; discriminate].
    assert (Eo : p_stack s = [] -> off_of s = rpos s) by (intros Z; unfold off_of, unread, current_node; rewrite Z; cbn [hd_error]; lia).
    eapply at_top_push with (s := s) (s1 := s2) (n := n); [exact T|rewrite N8, En; reflexivity|congruence| | | |].
    + rewrite C6, P1. unfold off_of. lia.
    + rewrite C6, C5. lia.
    + intros Z. rewrite C6, P1. symmetry. apply Eo. exact Z.
    + intros Z Tn. split; [exact Tn|]. exists (nh_alen h). rewrite C6. subst n. cbn [sn_end sn_attrs sn_name] in *. split; [exact C2|]. split; [exact C3|]. rewrite C5. lia.
Qed.

Lemma led_load : forall O b (ld : loader O) s r s' a, led s -> p_attrs s = Some a -> load_next_gen b ld s = (r, s') -> r <> Panic -> led s'.
Proof.
  intros O b ld s r s' a L Ea H Hp. apply load_next_shape in H; [|exact Hp]. intros Hrun. destruct (p_health s) eqn:Eh.
  2,3: destruct H as [-> _]; congruence.
  destruct H as (a' & _ & r0 & s1 & Eb & Hr0 & H). apply load_body_quietl in Eb; [|exact Hr0]. destruct Eb as [(_ & _ & S & _ & _ & _ & _ & d & q & (_ & _ & M & _) & _) A].
  destruct (L Eh) as [T E]. destruct r as [v|e|]; [|destruct H as (e0 & p0 & _ & _ & H); cbv zeta in H; destruct H as [-> _]; discriminate|contradiction].
  destruct H as [_ ->]. assert (p_stack s <> []) by (intros Z; rewrite (E Z) in Ea; discriminate). split; [|rewrite S; contradiction].
  unfold at_top in *. rewrite S. destruct (p_stack s); [contradiction|]. eapply bottom_later; [exact T|]. unfold rpos. lia.
Qed.

Lemma led_op : forall O (o : op O) s r s', inv data ver s -> led s -> run_op o s = (r, s') -> r <> Panic ->
  (o = OSkip -> forall e, r <> Err e) -> led s'.
Proof.
  intros O o s r s' I L H Hp Sk. apply run_op_shape in H; [|exact Hp]. destruct o as [|l|l|]; cbn [op_shape] in H.
  - destruct H as (r0 & s1 & Hn & H). assert (Hr0 : r0 <> Panic) by (intros ->; exact H).
    assert (I0 : inv data ver (set_attrs None s)) by (eapply inv_same; [exact I|reflexivity|reflexivity|reflexivity|reflexivity]).
    apply next_event_shape in Hn; [|exact Hr0]. cbn [p_health set_attrs] in Hn. intros Hrun.
    destruct (p_health s) eqn:Eh.
    2,3: destruct Hn as [-> ->]; destruct H as [_ ->]; cbn in Hrun; congruence.
    destruct (L Eh) as [T _]. destruct Hn as (_ & r1 & s2 & Hi & Hn). apply (impl_led (set_attrs None s)) in Hi; [|exact I0|exact T|reflexivity].
    destruct r0 as [[name| |f]|e|]; [| | | |contradiction].
    + destruct Hn as (-> & -> & n & rest & E1 & _). destruct H as (_ & n' & rest' & _ & ->). destruct Hi as [Hi Hs]. split; [exact Hi|]. cbn. intros Z. contradiction.
    + destruct Hn as (-> & ->). destruct H as (_ & ->). destruct Hi as [Hi Hs]. split; [exact Hi|]. auto.
    + destruct Hn as (-> & Hn). destruct H as (_ & ->). apply (steps_elim _ _ _ _ _ _ read_footer_quiet) in Hn; [|destruct f; discriminate].
      destruct Hn as [(_ & Q & _) _]. rewrite Q in Hrun. discriminate.
    + destruct Hn as (e0 & q & _ & _ & -> & _). destruct H as (_ & ->). discriminate.
  - destruct (p_attrs s) as [a|] eqn:Ea; [|destruct H as [_ ->]; exact L]. destruct H as (r0 & H & H0). assert (Hr0 : r0 <> Panic) by (intros ->; exact H0).
    eapply led_load; eassumption.
  - destruct (p_attrs s) as [a|] eqn:Ea; [|destruct H as [_ ->]; exact L]. destruct H as (r0 & H & H0). assert (Hr0 : r0 <> Panic) by (intros ->; exact H0).
    eapply led_load; eassumption.
  - destruct H as (r0 & H & H0). assert (Hr0 : r0 <> Panic) by (intros ->; exact H0).
    apply skip_shape in H; [|exact Hr0]. destruct H as (n & rest & E & H). cbn [p_stack set_attrs] in E.
    pose proof H as H'. apply m_skip_to_quieta in H'; [|exact Hr0]. destruct H' as [(_ & Q2 & Q3 & _) Q4]. cbn in Q2, Q3, Q4.
    destruct r0 as [[]|e|]; [|subst; destruct (Sk eq_refl e); reflexivity|contradiction].
    intros Hrun. rewrite Q2 in Hrun. destruct (L Hrun) as [T _]. split; [|intros _; rewrite Q4; reflexivity].
    assert (P : rpos s' = sn_end n /\ (rpos s <= rpos s')%N).
    { unfold m_skip_to, rdop, bind in H. destruct (skip_to _ _) as [[[e|]|] r'] eqn:Es; try discriminate. injection H as <-.
      apply skip_to_spec in Es. cbn [p_rd set_last pop set_stack set_attrs] in Es. destruct Es as [P1 P2]. rewrite (iv_seek _ _ _ I) in P2. destruct P2 as (_ & _ & P2 & _).
      unfold rpos. cbn [p_rd set_rd]. lia. }
    eapply at_top_pop with (s := s) (n := n) (t := rest); [exact T|exact E|rewrite Q3, E; reflexivity|apply P|apply P].
Qed.

Lemma led_ops : forall O (l : list (op O)) s rs s', inv data ver s -> led s -> run_ops l s = (rs, s') -> no_panic rs -> skips_fine l rs -> led s'.
Proof.
  intros O l. induction l as [|o l IH]; intros s rs s' I L H N F; cbn [run_ops] in H; [injection H as <- <-; exact L|].
  destruct (run_op o s) as [r s1] eqn:E. assert (Hr : r <> Panic) by (intros ->; injection H as <- <-; discriminate).
  assert (I1 : inv data ver s1) by (eapply inv_op; eassumption).
  destruct (run_ops l s1) as [rs1 s2] eqn:E1.
  assert (Ers : rs = r :: rs1 /\ s' = s2) by (destruct r; [|  |contradiction]; injection H as <- <-; auto). destruct Ers as [-> ->].
  assert (N1 : no_panic rs1) by (unfold no_panic in *; cbn [existsb] in N; apply orb_false_iff in N; apply N).
  assert (F1 : skips_fine l rs1 /\ (o = OSkip -> forall e, r <> Err e)) by (cbn [skips_fine] in F; destruct o; try (split; [exact F|discriminate]); split; [apply F|intros _; apply F]).
  eapply IH; [exact I1| |exact E1|exact N1|apply F1]. eapply led_op; [exact I|exact L|exact E|exact Hr|apply F1].
Qed.

Lemma led_opened : forall sched seeks seekable h p, opened data sched seeks seekable h p -> led p.
Proof.
  intros sched seeks seekable h p Ho _. apply opened_init in Ho. destruct Ho as (_ & E & _ & _ & _ & _ & A & R & _).
  unfold at_top. rewrite E. split; [|auto]. unfold rpos. rewrite R. constructor.
Qed.

Lemma end_led : forall O s f s', inv data ver s -> led s -> run_op (@ONext O) s = (Ok (BEvent (EvEndFbx f)), s') ->
  exists off, top_level data ver off /\ at_offset data off (end_marker ver) /\
    forall ft, f = inr ft -> exists g ext, foot_ok g /\ dropN (off + header_size ver) data = enc_footer ver g ++ ext /\ ft = footer_of ver g.
Proof.
  intros O s f s' I L H. apply run_op_shape in H; [|discriminate]. cbn [op_shape] in H.
  destruct H as (r0 & s1 & Hn & H). assert (Hr0 : r0 <> Panic) by (intros ->; exact H).
  assert (I0 : inv data ver (set_attrs None s)) by (eapply inv_same; [exact I|reflexivity|reflexivity|reflexivity|reflexivity]).
  destruct (topok_position _ (iv_top _ _ _ I0)) as (before & Pb & _).
  pose proof Hn as Hn'. apply next_event_shape in Hn; [|exact Hr0]. cbn [p_health set_attrs] in Hn.
  destruct (p_health s) eqn:Eh.
  2,3: destruct Hn as [_ ->]; destruct H; discriminate.
  destruct (L Eh) as [T _]. destruct Hn as (_ & r1 & s2 & Hi & Hn). pose proof (impl_said _ _ _ _ _ _ I0 Pb Hi) as Sd.
  apply (impl_led (set_attrs None s)) in Hi; [|exact I0|exact T|reflexivity].
  destruct r0 as [ev|e|]; [|destruct H; discriminate|contradiction]. destruct H as [[= <-] ->]. destruct Hn as (-> & Hn). destruct Sd as (I2 & _). destruct Hi as (off & H1 & H2 & H3).
  exists off. split; [exact H1|]. split; [exact H2|]. intros ft ->. eapply footer_there; [|split|exact Hn].
  - cbn. apply I2.
  - cbn [app]. rewrite <- H3. symmetry. apply I2.
  - unfold lenN. cbn [length]. rewrite N.add_0_r. exact H3.
Qed.
End WithEnv.
