(** The component position of a failing attribute load on well-formed attributes (C50), and the
    examples for C50, C51 and C52. *)
Require Import Coq.Lists.List Coq.NArith.NArith Coq.ZArith.ZArith Coq.Bool.Bool Coq.micromega.Lia.
Require Import Coq.Init.Byte.
Require Import ZifyBool ZifyNat ZifyN.
Require Import Verif.Base Verif.BaseFacts Verif.Utf8 Verif.Types Verif.Io Verif.IoFacts Verif.Parser Verif.MonadFacts Verif.Zlib Verif.Moves Verif.Loaders Verif.Spec Verif.ReadFacts Verif.ParserSteps Verif.ParserShape Verif.SpecHist Verif.ParserHist Verif.ParserPos Verif.AttrLoad Verif.AttrAny Verif.PropsSafety Verif.PropsEvents Verif.PropsAttr Verif.SpecPos Verif.WarnPos Verif.PropsPos Verif.Samples.
Import ListNotations.
Ltac Zify.zify_post_hook ::= Z.div_mod_to_equations.

Section WithEnv.
Context {env : Env}.

(** ** C50: the component position of a failing load on well-formed attributes *)
Lemma amoved_n : forall at0 n junk rest a s m s', attrs_n n junk (enc_attr at0 ++ rest) a s ->
  (m <= lenN junk + lenN (enc_attr at0))%N -> amoved (after_load a at0) m s s' ->
  exists junk', attrs_n (n - 1) junk' rest (after_load a at0) s' /\ p_health s' = p_health s /\
    r_seekable (p_rd s') = r_seekable (p_rd s).
Proof.
  intros at0 n junk rest a s m s' (A1 & A2 & A3 & A4 & A5) Hm (s1 & M1 & ->).
  exists (dropN m (junk ++ enc_attr at0)). pose proof M1 as (E1 & (_ & _ & _ & E2) & _). split; [|split].
  - split; [|split; [reflexivity|split; [|split]]].
    + eapply moved_ready in M1; [exact M1| |exact A1]. rewrite A4, !lenN_app. lia.
    + unfold after_load. cbn [a_rest]. rewrite A3. reflexivity.
    + change (rem_of s1 = dropN m (junk ++ enc_attr at0) ++ rest).
      rewrite (moved_rem' _ _ _ M1), A4, (app_assoc junk). apply dropN_app_le. rewrite lenN_app. exact Hm.
    + change (pos_of (set_attrs (Some (after_load a at0)) s1)) with (pos_of s1). unfold after_load. cbn [a_next].
      rewrite lenN_dropN, lenN_app, (moved_pos _ _ _ M1), A5. lia.
  - rewrite E1. reflexivity.
  - exact E2.
Qed.

Lemma loads_n : forall O (ls : list (bool * loader O)) ats n junk rest a s rs s', zlib_roundtrip env -> Forall attr_ok ats ->
  p_health s = Running -> r_seekable (p_rd s) = true -> attrs_n n junk (enc_attrs ats ++ rest) a s ->
  length ls = length ats -> (lenN ats <= n)%N ->
  run_ops (map (fun x => load_op (fst x) (snd x)) ls) s = (rs, s') -> forallb Base.is_ok rs = true ->
  exists a' junk', attrs_n (n - lenN ats) junk' rest a' s' /\ p_health s' = Running /\
    a_total a' = a_total a /\ a_next a' = (a_next a + lenN (enc_attrs ats))%N.
Proof.
  intros O ls. induction ls as [|[b ld] ls IH]; intros ats n junk rest a s rs s' HZ Hok Hh Hk H Hl Hn HR HO.
  - destruct ats; [|discriminate]. cbn in HR. injection HR as <- <-. exists a, junk. change (lenN (@nil attr)) with 0%N. rewrite N.sub_0_r.
    split; [exact H|]. split; [exact Hh|]. split; [reflexivity|]. change (lenN (enc_attrs [])) with 0%N. lia.
  - destruct ats as [|at0 ats]; [discriminate|]. cbn [map run_ops fst snd] in HR. rewrite lenN_cons in Hn.
    pose proof H as (_ & Ha & _). rewrite load_op_run in HR by congruence. unfold bind in HR.
    destruct (load_next_gen b ld s) as [[v|e|] s1] eqn:E1.
    2:{ destruct (run_ops _ s1) as [rs1 s2]. injection HR as <- <-. discriminate. }
    2:{ injection HR as <- <-. discriminate. }
    cbn [ret] in HR. destruct (run_ops _ s1) as [rs1 s2] eqn:E2. injection HR as <- <-. cbn [forallb Base.is_ok andb] in HO.
    inversion Hok as [|? ? Hok1 Hok2]; subst.
    change (enc_attrs (at0 :: ats)) with (enc_attr at0 ++ enc_attrs ats) in *. rewrite <- app_assoc in H.
    pose proof (load_next_n HZ O b ld at0 n junk _ a s _ s1 Hh H ltac:(lia) (or_introl Hk) Hok1 E1 ltac:(discriminate)) as L.
    destruct v as [v|]; [|tauto]. destruct L as (m & Hm & M).
    destruct (amoved_n _ _ _ _ _ _ _ _ H Hm M) as (junk1 & H1 & Hh1 & Hk1).
    destruct (IH ats (n - 1)%N junk1 rest _ s1 rs1 s2 HZ Hok2 ltac:(congruence) ltac:(congruence) H1 ltac:(cbn in Hl; lia) ltac:(lia) E2 HO)
      as (a' & junk' & G1 & G2 & G4 & G5).
    exists a', junk'. rewrite lenN_cons. replace (n - (1 + lenN ats))%N with (n - 1 - lenN ats)%N by lia.
    split; [exact G1|]. split; [exact G2|]. split; [exact G4|].
    rewrite G5. unfold after_load. cbn [a_next]. rewrite lenN_app. lia.
Qed.

(** On a seekable reader, when the attributes loaded so far are well formed and their loads
    succeeded (whatever their loaders left unread), the component position of a failing load is
    where the attribute it is about begins. Nothing is assumed about that attribute itself. *)
Theorem C50_attribute_offset :
  forall O data sched seeks h p (l : list (op O)) rs0 p0 name s n ats rest (ls : list (bool * loader O)) rs s1 b (ld : loader O) e s2,
    zlib_roundtrip env ->
    opened data sched seeks true h p -> run_ops l p = (rs0, p0) -> no_panic rs0 ->
    run_op (@ONext O) p0 = (Ok (BEvent (EvStart name)), s) -> ready s ->
    current_node s = Some n -> (lenN ats <= sn_attrs n)%N ->
    s_rem (r_stream (p_rd s)) = enc_attrs ats ++ rest -> Forall attr_ok ats ->
    length ls = length ats ->
    run_ops (map (fun x => load_op (fst x) (snd x)) ls) s = (rs, s1) -> forallb Base.is_ok rs = true ->
    run_op (load_op b ld) s1 = (Err e, s2) ->
    exists pos started, e_position e = Some pos /\ position_of s = Some started /\
      attribute_index pos = Some (lenN ats) /\
      component_byte_pos pos = (byte_pos started + lenN (enc_attrs ats))%N.
Proof.
  intros O data sched seeks h p l rs0 p0 name s n ats rest ls rs s1 b ld e s2 HZ Ho Hr0 Hn0 Hst Hrdy Hcur Hcnt Hrem Hok Hlen HR HO HE.
  assert (Hseek : r_seekable (p_rd s) = true).
  { pose proof (run_ops_fwd _ _ _ _ _ Hr0 Hn0) as (_ & _ & _ & d1 & q1 & (_ & _ & _ & F1) & _).
    assert (F : fwd p0 s) by (eapply steps_elim; [apply run_op_fwd|exact Hst|discriminate]).
    destruct F as (_ & _ & _ & d2 & q2 & (_ & _ & _ & F2) & _).
    apply opened_init in Ho. destruct Ho as (_ & _ & _ & _ & _ & _ & _ & _ & Es & _). congruence. }
  assert (Htop : exists started, position_of s = Some started /\ byte_pos started = rpos s).
  { apply topok_position. assert (R2 : run_ops (l ++ [@ONext O]) p = (rs0 ++ [Ok (BEvent (EvStart name))], s)).
    { rewrite run_ops_app, Hr0. rewrite Hn0. cbn [run_ops]. rewrite Hst. reflexivity. }
    eapply run_ops_keeps; [exact R2| |eapply opened_topok; eauto].
    unfold no_panic in *. rewrite existsb_app, Hn0. reflexivity. }
  destruct Htop as (started & Es & Eb).
  destruct (C16_start_counts _ _ _ _ Hst) as (n' & a & Hcur' & Ha & Hh & Ht & Hrest & _).
  rewrite Hcur in Hcur'. injection Hcur' as <-.
  assert (Hnext : a_next a = rpos s).
  { apply run_op_shape in Hst; [|discriminate]. cbn [op_shape] in Hst. destruct Hst as (r0 & sx & _ & Hst).
    destruct r0 as [ev|e0|]; [|destruct Hst; discriminate|tauto]. destruct Hst as [[= <-] (nx & restx & _ & Hs)].
    rewrite Hs in Ha. cbn [p_attrs set_attrs] in Ha. injection Ha as <-. rewrite Hs. reflexivity. }
  assert (AT : attrs_n (sn_attrs n) [] (enc_attrs ats ++ rest) a s).
  { split; [exact Hrdy|]. split; [exact Ha|]. split; [exact Hrest|]. split; [exact Hrem|]. change (lenN (@nil byte)) with 0%N. unfold pos_of. unfold rpos in Hnext. lia. }
  destruct (loads_n O ls ats _ [] rest a s rs s1 HZ Hok Hh Hseek AT Hlen Hcnt HR HO) as (a' & junk' & (G0 & Ga & Grest & _) & G2 & G4 & G5).
  rewrite load_op_run in HE by congruence. unfold bind in HE. destruct (load_next_gen b ld s1) as [[v|e'|] s3] eqn:E1; try discriminate.
  injection HE as -> ->. apply load_next_shape in E1; [|discriminate]. rewrite G2 in E1.
  destruct E1 as (a0 & Ea0 & r1 & sx & _ & _ & e1 & p1 & -> & Ep1 & _ & ->). rewrite Ga in Ea0. injection Ea0 as <-.
  do 2 eexists. split; [reflexivity|]. split; [exact Es|]. cbn [attribute_index component_byte_pos]. split.
  - f_equal. rewrite G4, Ht, Grest. lia.
  - rewrite G5, Hnext, Eb. reflexivity.
Qed.
End WithEnv.

(** ** Examples *)

(** A document that raises every kind of warning [next_event] and the loaders have: node [A] has
    one attribute, a boolean stored as 3; its child has an empty name and no end marker; the
    node [B] has an attribute and no children, but an end marker; the footer has a wrong first
    field and two bytes of padding too few. *)
Definition warning_doc : list byte :=
  magic ++ le_enc 4 7400 ++
  (* 27 *) le_enc 4 69 ++ le_enc 4 1 ++ le_enc 4 2 ++ [x01] ++ s_a ++
  (* 41 *) [x43; x03] ++
  (* 43 *) le_enc 4 56 ++ le_enc 4 0 ++ le_enc 4 0 ++ [x00] ++
  (* 56 *) zeros 13 ++
  (* 69 *) le_enc 4 101 ++ le_enc 4 1 ++ le_enc 4 5 ++ [x01] ++ s_b ++
  (* 83 *) [x49] ++ le_enc 4 7 ++
  (* 88 *) zeros 13 ++
  (* 101 *) zeros 13 ++
  (* 114 *) zeros 16 ++ (* 130 *) zeros 12 ++ zeros 4 ++ le_enc 4 7400 ++ zeros 120 ++ spec_trailer.

Definition warning_ops : list (op aval) := [ONext; ld; ONext; ONext; ONext; ONext; ONext; ONext].

(** The hypotheses of C50_component_position, C51 and C52 hold of the whole run, and the
    warnings are where the specification puts them. *)
Example warning_example : exists p rs p', opened warning_doc [] [] true None p /\
  run_ops (env:=release) warning_ops p = (rs, p') /\ no_panic rs /\
  existsb failed_next (combine warning_ops rs) = false /\
  map (fun w => (fst w, warning_offset w)) (rev (p_log p')) =
    [(IncorrectBooleanRepresentation, 43); (EmptyNodeName, 56); (MissingNodeEndMarker, 56);
     (ExtraNodeEndMarker, 101); (UnexpectedFooterFieldValue, 114); (InvalidFooterPaddingLength 14 12, 130)]%N /\
  map (fun w => (component_byte_pos (snd w), attribute_index (snd w), map fst (node_path (snd w)))) (rev (p_log p')) =
    [(41, Some 0, [0]); (43, None, [0; 0]); (43, None, [0; 0]); (0, None, []); (114, None, []); (114, None, [])]%N /\
  is_used p' = true.
Proof.
  unfold opened. do 3 eexists. split; [eexists; split; [vm_compute; reflexivity|reflexivity]|]. split; [vm_compute; reflexivity|].
  vm_compute. repeat split.
Qed.

(** C50, C52: inside the child of [A], the component is the child itself, which begins at 43;
    its name is empty; after the two [EndNode]s, and before the first event, asking for the name
    panics, and the parser is used after the first event only. *)
Example current_example : exists p p1 p2 p3 rs1 rs2 rs3, opened warning_doc [] [] true None p /\
  run_ops (env:=release) [@ONext aval] p = (rs1, p1) /\
  run_ops (env:=release) [ONext; ld; ONext] p = (rs2, p2) /\ no_panic rs2 /\
  existsb failed_next (combine [ONext; ld; ONext] rs2) = false /\
  run_ops (env:=release) [ONext; ld; ONext; ONext; ONext] p = (rs3, p3) /\
  option_map component_byte_pos (position_of p1) = Some 27%N /\
  option_map component_byte_pos (position_of p2) = Some 43%N /\
  option_map component_byte_pos (position_of p3) = Some 0%N /\
  fst (current_node_name p) = Panic /\ fst (current_node_name p1) = Ok s_a /\
  fst (current_node_name p2) = Ok [] /\ fst (current_node_name p3) = Panic /\
  is_used p = false /\ is_used p1 = true.
Proof.
  unfold opened. do 7 eexists. split; [eexists; split; [vm_compute; reflexivity|reflexivity]|]. do 2 (split; [vm_compute; reflexivity|]).
  split; [vm_compute; reflexivity|]. split; [vm_compute; reflexivity|]. split; [vm_compute; reflexivity|].
  vm_compute. repeat split.
Qed.

(** C50: the second top-level node has a bad type code in its second attribute; the error of
    the load names attribute 1 of node 1, which begins right after the string "hi" the first
    load returned. *)
Definition bad_attr_doc : list byte :=
  magic ++ le_enc 4 7400 ++
  (* 27 *) le_enc 4 54 ++ le_enc 4 0 ++ le_enc 4 0 ++ [x01] ++ s_a ++
  (* 41 *) zeros 13 ++
  (* 54 *) le_enc 4 76 ++ le_enc 4 2 ++ le_enc 4 8 ++ [x01] ++ s_b ++
  (* 68 *) [x53] ++ le_enc 4 2 ++ s_hi ++
  (* 75 *) [x00] ++ zeros 30.
Definition bad_attr_ops : list (op aval) := [ONext; ONext; ONext; ld].
Example load_error_example : exists p rs p1 t e p2, opened bad_attr_doc [] [] true None p /\
  run_ops (env:=release) bad_attr_ops p = (rs, p1) /\ no_panic rs /\
  existsb failed_next (combine bad_attr_ops rs) = false /\ tk_run tk_init (combine bad_attr_ops rs) = Some t /\
  run_op (env:=release) ld p1 = (Err e, p2) /\ first_error e /\
  attributes_taken 0 (combine bad_attr_ops rs) = 1%N /\
  e_position e = Some (mkPos 76 75 [(1, s_b)]%N (Some 1%N)).
Proof.
  unfold opened. do 6 eexists. split; [eexists; split; [vm_compute; reflexivity|reflexivity]|]. split; [vm_compute; reflexivity|].
  split; [vm_compute; reflexivity|]. split; [vm_compute; reflexivity|]. split; [vm_compute; reflexivity|].
  split; [vm_compute; reflexivity|]. split; [split; discriminate|]. vm_compute. split; reflexivity.
Qed.

(** The same with the hypotheses of C50_attribute_offset. *)
Example attribute_offset_example : exists p rs0 p0 s n rs s1 e s2, opened bad_attr_doc [] [] true None p /\
  run_ops (env:=release) [@ONext aval; ONext] p = (rs0, p0) /\ no_panic rs0 /\
  run_op (env:=release) (@ONext aval) p0 = (Ok (BEvent (EvStart s_b)), s) /\ ready s /\
  current_node s = Some n /\ (lenN [mkAttr (VString s_hi) false] <= sn_attrs n)%N /\
  s_rem (r_stream (p_rd s)) = enc_attrs (env:=release) [mkAttr (VString s_hi) false] ++ x00 :: zeros 30 /\
  Forall (attr_ok (env:=release)) [mkAttr (VString s_hi) false] /\
  run_ops (env:=release) (map (fun x => load_op (fst x) (snd x)) [(true, direct_loader)]) s = (rs, s1) /\ forallb Base.is_ok rs = true /\
  run_op (env:=release) (load_op false direct_loader) s1 = (Err e, s2) /\
  option_map component_byte_pos (e_position e) = Some 75%N.
Proof.
  unfold opened. do 9 eexists. split; [eexists; split; [vm_compute; reflexivity|reflexivity]|]. split; [vm_compute; reflexivity|].
  split; [vm_compute; reflexivity|]. split; [vm_compute; reflexivity|]. split; [split; [split; reflexivity|vm_compute; reflexivity]|].
  split; [vm_compute; reflexivity|]. split; [vm_compute; discriminate|]. split; [vm_compute; reflexivity|].
  split; [repeat constructor; vm_compute; intuition congruence|].
  split; [vm_compute; reflexivity|]. split; [vm_compute; reflexivity|]. split; [vm_compute; reflexivity|]. reflexivity.
Qed.

(** C50: a child that claims to end after its parent. [bad_end] of C05 ends too late at the end
    of the node: the error is placed at the parent, here the root. *)
Definition late_child : list byte :=
  magic ++ le_enc 4 7400 ++
  (* 27 *) le_enc 4 68 ++ le_enc 4 0 ++ le_enc 4 0 ++ [x01] ++ s_a ++
  (* 41 *) le_enc 4 90 ++ le_enc 4 0 ++ le_enc 4 0 ++ [x01] ++ s_b ++
  (* 55 *) zeros 13 ++ (* 68 *) zeros 30.
Example event_error_example : exists p rs p1 t e p2, opened late_child [] [] true None p /\
  run_ops (env:=release) [@ONext aval; ONext] p = (rs, p1) /\ no_panic rs /\
  existsb failed_next (combine [@ONext aval; ONext] rs) = false /\ tk_run tk_init (combine [@ONext aval; ONext] rs) = Some t /\
  run_op (env:=release) (@ONext aval) p1 = (Err e, p2) /\ first_error e /\
  map fst (tk_path t) = [0; 0]%N /\
  option_map (fun q => (byte_pos q, component_byte_pos q, map fst (node_path q))) (e_position e) = Some (68, 27, [0])%N.
Proof.
  unfold opened. do 6 eexists. split; [eexists; split; [vm_compute; reflexivity|reflexivity]|]. split; [vm_compute; reflexivity|].
  split; [vm_compute; reflexivity|]. split; [vm_compute; reflexivity|]. split; [vm_compute; reflexivity|].
  split; [vm_compute; reflexivity|]. split; [split; discriminate|]. vm_compute. split; reflexivity.
Qed.

Print Assumptions C50_component_position.
Print Assumptions C50_event_error_position.
Print Assumptions C50_load_error_position.
Print Assumptions C50_attribute_offset.
Print Assumptions C51_warnings_in_order.
Print Assumptions C51_warning_places.
Print Assumptions C52_current_node_name.
Print Assumptions C52_is_used.
