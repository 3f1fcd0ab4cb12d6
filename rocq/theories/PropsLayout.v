(** C53: what the parser accepts is exactly the documented layout. *)
Require Import Coq.Lists.List Coq.NArith.NArith Coq.ZArith.ZArith Coq.Bool.Bool Coq.micromega.Lia.
Require Import Coq.Init.Byte.
Require Import ZifyBool ZifyNat ZifyN.
Require Import Verif.Base Verif.BaseFacts Verif.Utf8 Verif.Types Verif.Io Verif.IoFacts Verif.Parser Verif.MonadFacts Verif.ParserSteps
  Verif.ParserShape Verif.ParserHist Verif.ParserPos Verif.ReadFacts Verif.Moves Verif.AttrLoad Verif.DocCursor Verif.FooterFacts Verif.PropsSafety Verif.WarnPos
  Verif.Spec Verif.PropsHeader Verif.PropsDoc Verif.SpecLayout Verif.Layout Verif.LayoutIn Verif.LayoutOut Verif.Samples Verif.PropsAttrPos.
Import ListNotations.
Ltac Zify.zify_post_hook ::= Z.div_mod_to_equations.

Section WithEnv.
Context {env : Env}.

Lemma opened_bytes : forall data sched seeks seekable h p, opened data sched seeks seekable h p ->
  data = spec_magic ++ le_enc 4 (p_ver p) ++ rem_of p.
Proof.
  intros data sched seeks seekable h p (p0 & E & ->). unfold any_parser in E.
  destruct (header_load (mkStream data 0 sched seeks)) as [[v|e|] s'] eqn:Eh; try discriminate.
  destruct (ver_supported v) eqn:Ev; [|discriminate]. unfold parser_create in E. rewrite Ev in E.
  injection E as <-. unfold rem_of. cbn [set_handler p_ver p_rd r_stream].
  unfold header_load, st_read_exact in Eh. cbn [s_sched s_rem s_off s_seeks] in Eh.
  destruct (rx sched data 23) as [[[e1 g1] r1] sc1] eqn:E1. apply rx_gen in E1.
  destruct E1 as (D1 & _ & G1 & _). destruct e1 as [e1|]; [discriminate|]. specialize (G1 eq_refl).
  destruct (bytes_eqb g1 magic) eqn:Em; [|discriminate]. cbn [s_sched s_rem s_off s_seeks] in Eh.
  destruct (rx sc1 r1 4) as [[[e2 g2] r2] sc2] eqn:E2. apply rx_gen in E2.
  destruct E2 as (D2 & _ & G2 & _). destruct e2 as [e2|]; [discriminate|]. specialize (G2 eq_refl).
  injection Eh as <- <-. cbn [s_rem]. replace (le_enc 4 (le_dec g2)) with g2 by (rewrite <- G2; symmetry; apply le_enc_dec). apply bytes_eqb_eq in Em. rewrite D1, D2, Em, magic_is_spec. reflexivity.
Qed.

(** ** From a run to the layout *)
(** If asking for events only, a client reaches the end of the document, then the bytes are the
    layout of some nodes followed by some bytes, the events are the events of those nodes, and
    the warnings are the warnings of those nodes followed by warnings about the footer. This is
    for every way the reader delivers bytes or fails. *)
Theorem C53_accepted_layout : forall O data sched seeks h p n rs f p',
  opened data sched seeks true h p ->
  run_ops (repeat (@ONext O) n) p = (rs ++ [Ok (BEvent (EvEndFbx f))], p') ->
  exists nodes rest fw, data = lay_doc (p_ver p) nodes ++ rest /\
    skels_ok (negb ovf_checks) (p_ver p) 27 nodes /\
    rs = map (fun e => Ok (BEvent e)) (flat_map skel_events nodes) /\
    map fst (rev (p_log p')) = flat_map skel_warnings nodes ++ fw /\ Forall from_footer fw.
Proof.
  intros O data sched seeks h p n rs f p' Ho R. pose proof (opened_bytes _ _ _ _ _ _ Ho) as D.
  destruct (opened_init _ _ _ _ _ _ Ho) as (I1 & I2 & I3 & I4 & I5 & I6 & I7 & I8 & I9 & I10 & I11 & I12 & I13).
  assert (S : settled (p_ver p) data p []).
  { intros s1 E. unfold skip_unread_attributes in E. rewrite bind_gets in E. unfold current_node in E. rewrite I2 in E. injection E as <-.
    right. exists [], []. split; [|reflexivity]. split; [exact I9|]. split; [reflexivity|]. split; [exact D|].
    split; [exact I8|]. split; [rewrite I2; exact I|]. split; [exact I|]. split; [exact I|]. rewrite I6. reflexivity. }
  destruct (run_settled _ _ O n p [] rs f p' S R) as (tops & s1 & E1 & E2 & E3 & E4 & E5 & E6).
  destruct (footer_warns _ _ _ E6) as (l & L1 & _ & L2). { destruct f; discriminate. }
  exists tops, (rem s1), (rev (map fst l)). split; [exact E1|]. split; [exact E2|]. split; [exact E3|]. split.
  - rewrite L1, map_rev, map_app, rev_app_distr, E4. reflexivity.
  - apply Forall_rev. clear - L2. induction L2 as [|[w q] l [_ [_ H]] _ IH]; constructor; [|exact IH]. destruct w; first [exact I|exact H].
Qed.

(** ** From the layout to a run *)
(** The bytes of a layout of nodes, followed by any bytes, are accepted: the parser is created,
    and a client that asks for events only gets the events of the nodes and the end of the
    document, with the warnings of the nodes and of the footer. The end carries a footer exactly
    if the bytes that follow begin with one, and then that one. This is for every reader that
    delivers its bytes in any pieces without failing, and every handler that accepts all
    warnings. *)
Theorem C53_layout_accepted : forall O ver nodes rest sched seeks h,
  (7000 <= ver <= 7999)%N -> skels_ok (negb ovf_checks) ver 27 nodes ->
  let data := lay_doc ver nodes ++ rest in
  (lenN data < 2 ^ 64)%N -> nofail sched = true -> noseekfail seeks = true -> accepting h ->
  exists p f p' fw, opened data sched seeks true h p /\ p_ver p = ver /\
    run_ops (repeat (@ONext O) (S (length (flat_map skel_events nodes)))) p =
      (map (fun e => Ok (BEvent e)) (flat_map skel_events nodes ++ [EvEndFbx f]), p') /\
    map fst (rev (p_log p')) = flat_map skel_warnings nodes ++ fw /\ Forall from_footer fw /\
    match f with
    | inr ft => exists f0 ext, foot_ok f0 /\ rest = enc_footer ver f0 ++ ext /\ ft = footer_of ver f0
    | inl _ => forall f0 ext, foot_ok f0 -> rest <> enc_footer ver f0 ++ ext
    end.
Proof.
  intros O ver nodes rest sched seeks h V Ks data HL Hs Hk Hh.
  assert (U4 : u_ok 4 ver) by (apply u4_ver; exact V).
  assert (D : data = spec_magic ++ le_enc 4 ver ++ lay_skels ver 27 nodes ++ end_marker ver ++ rest) by (unfold data, lay_doc; rewrite <- !app_assoc; reflexivity).
  assert (Op : exists p, opened data sched seeks true h p).
  { unfold opened, any_parser. destruct (header_load_nofail (mkStream data 0 sched seeks) Hs) as (sc' & H3 & Eh). cbn [s_rem s_off s_seeks] in Eh.
    assert (L1 : Nat.leb 23 (length data) = true) by (apply Nat.leb_le; rewrite D, app_length; change (length spec_magic) with 23%nat; lia).
    assert (L2 : Nat.leb 27 (length data) = true) by (apply Nat.leb_le; rewrite D, !app_length, le_enc_length; change (length spec_magic) with 23%nat; lia).
    assert (L3 : bytes_eqb (firstn 23 data) magic = true) by (apply bytes_eqb_eq; rewrite D; reflexivity).
    assert (L4 : le_dec (firstn 4 (skipn 23 data)) = ver).
    { rewrite D. change (skipn 23 (spec_magic ++ ?x)) with x. rewrite firstn_app, firstn_all2 by (rewrite le_enc_length; auto).
      rewrite le_enc_length. cbn [Nat.sub firstn]. rewrite app_nil_r. apply le_dec_enc. exact U4. }
    rewrite L1, L2, L3 in Eh. rewrite Eh, L4. unfold parser_create.
    assert (Ev : ver_supported ver = true) by (unfold ver_supported; lia). rewrite Ev. do 2 eexists. split; reflexivity. }
  destruct Op as (p & Op). exists p. pose proof (opened_bytes _ _ _ _ _ _ Op) as D'. destruct (opened_calm _ _ _ _ _ _ Hs Hk Op) as [Hc _].
  destruct (opened_init _ _ _ _ _ _ Op) as (I1 & I2 & I3 & I4 & I5 & I6 & I7 & I8 & I9 & I10 & I11 & I12 & I13).
  rewrite D in D'. apply app_inv_head in D'. apply app_inv_len in D'; [|rewrite !le_enc_lenN; reflexivity]. destruct D' as [EV ER].
  apply le_enc_inj in EV; [|exact U4|apply u4_ver; exact I12].
  assert (A : at_off ver p 27 (lay_skels ver 27 nodes ++ end_marker ver ++ rest)).
  { split.
    - constructor.
      + symmetry. exact EV.
      + exact I1.
      + unfold accepts. rewrite I5. exact Hh.
      + split; [exact Hc|]. unfold room. unfold rem_of in ER. rewrite <- ER, I8. rewrite D, app_assoc, lenN_app, lenN_app, le_enc_lenN in HL.
        change (lenN spec_magic) with 23%N in HL. change pow2_64 with (2 ^ 64)%N. lia.
      + exact I9.
      + rewrite I3. discriminate.
      + congruence.
    - exists []. split; [symmetry; exact ER|]. split; [unfold unread, current_node; rewrite I2; reflexivity|]. unfold pos_of. rewrite I8. reflexivity. }
  destruct (run_doc ver O nodes p rest A Ks I2 U4) as (f & s1 & p' & R & R1 & W1 & Y1 & A1 & V1 & F1).
  destruct (footer_read s1 ver Y1 A1 V1 U4) as (r & s' & F2 & F3). rewrite F1 in F2. injection F2 as <- <-.
  destruct (footer_warns _ _ _ F1) as (l & L1 & _ & L2). { destruct f; discriminate. }
  exists f, p', (rev (map fst l)). split; [exact Op|]. split; [congruence|]. split; [exact R|]. split; [|split].
  - rewrite L1, map_rev, map_app, rev_app_distr. unfold warned in W1. rewrite W1, I6. reflexivity.
  - apply Forall_rev. clear - L2. induction L2 as [|[w q] l [_ [_ H]] _ IH]; constructor; [|exact IH]. destruct w; first [exact I|exact H].
  - destruct f as [e|ft].
    + destruct F3 as (_ & F3). rewrite R1 in F3. exact F3.
    + destruct F3 as (f0 & ext & G1 & G2 & G3 & _). rewrite R1 in G2. exists f0, ext. auto.
Qed.

(** Over such a reader and handler, the end of the document is reached exactly on the layouts. *)
Theorem C53_accepted_iff : forall O data sched seeks h,
  (lenN data < 2 ^ 64)%N -> nofail sched = true -> noseekfail seeks = true -> accepting h ->
  (exists p n rs f p', opened data sched seeks true h p /\
     run_ops (repeat (@ONext O) n) p = (rs ++ [Ok (BEvent (EvEndFbx f))], p')) <->
  (exists ver nodes rest, (7000 <= ver <= 7999)%N /\ skels_ok (negb ovf_checks) ver 27 nodes /\
     data = lay_doc ver nodes ++ rest).
Proof.
  intros O data sched seeks h HL Hs Hk Hh. split.
  - intros (p & n & rs & f & p' & Op & R). destruct (C53_accepted_layout _ _ _ _ _ _ _ _ _ _ Op R) as (nodes & rest & fw & E1 & E2 & _).
    exists (p_ver p), nodes, rest. split; [eapply opened_init; exact Op|auto].
  - intros (ver & nodes & rest & V & Ks & ->). destruct (C53_layout_accepted O ver nodes rest sched seeks h V Ks HL Hs Hk Hh) as (p & f & p' & fw & Op & _ & R & _).
    exists p, (S (length (flat_map skel_events nodes))), (map (fun e => Ok (BEvent e)) (flat_map skel_events nodes)), f, p'.
    split; [exact Op|]. rewrite R, map_app. reflexivity.
Qed.
End WithEnv.

(** ** The layout is the only one *)
(** The same bytes are the layout of one version and one list of nodes only, and what follows is
    the same. *)
Theorem C53_layout_unique : forall wraps ver ver' nodes nodes' rest rest',
  (7000 <= ver <= 7999)%N -> (7000 <= ver' <= 7999)%N ->
  skels_ok wraps ver 27 nodes -> skels_ok wraps ver' 27 nodes' ->
  lay_doc ver nodes ++ rest = lay_doc ver' nodes' ++ rest' ->
  ver = ver' /\ nodes = nodes' /\ rest = rest'.
Proof.
  intros. eapply doc_one_way; try eassumption; apply u4_ver; assumption.
Qed.

(** ** Examples *)
(** A document with every warning about nodes: a child with an empty name and without its end
    marker, and a node with an end marker it does not need. *)
Definition warning_nodes : list skel :=
  [Skel s_a 1 2 [x43; x03] [Skel [] 0 0 [] [] false] true;
   Skel s_b 1 5 ([x49] ++ le_enc 4 7) [] true].
Example layout_example : skels_ok true 7400 27 warning_nodes /\ skels_ok false 7400 27 warning_nodes /\
  warning_doc = lay_doc 7400 warning_nodes ++ skipn 114 warning_doc /\
  flat_map skel_events warning_nodes = [EvStart s_a; EvStart []; EvEnd; EvEnd; EvStart s_b; EvEnd] /\
  flat_map skel_warnings warning_nodes = [EmptyNodeName; MissingNodeEndMarker; ExtraNodeEndMarker].
Proof. vm_compute. repeat split; try discriminate; auto. Qed.
Example accepted_example : exists p n rs f p', opened warning_doc [AChunk 5; AChunk 1] [] true None p /\
  run_ops (env:=checked) (repeat (@ONext unit) n) p = (rs ++ [Ok (BEvent (EvEndFbx (inr f)))], p').
Proof.
  unfold opened. eexists. exists 7%nat, (map (fun e => Ok (BEvent e)) (flat_map skel_events warning_nodes)). do 2 eexists.
  split; [eexists; split; [vm_compute; reflexivity|reflexivity]|]. vm_compute. reflexivity.
Qed.

(** Without overflow checks, a header can claim more bytes of attributes than the document, or
    any document, has: the length wraps, and the node is accepted. *)
Definition wrap_nodes : list skel := [Skel s_a 1 (2 ^ 64 - 1) [] [] false].
Definition wrap_doc : list byte := lay_doc 7500 wrap_nodes.
Example wrap_example : skels_ok true 7500 27 wrap_nodes /\ lenN wrap_doc = 78%N /\
  (exists p f p', opened wrap_doc [] [] true None p /\
   run_ops (env:=release) (repeat (@ONext unit) 3) p =
     ([Ok (BEvent (EvStart s_a)); Ok (BEvent EvEnd); Ok (BEvent (EvEndFbx f))], p')) /\
  exists p p', opened wrap_doc [] [] true None p /\
   run_ops (env:=checked) (repeat (@ONext unit) 3) p = ([Panic], p').
Proof.
  split; [vm_compute; repeat split; try discriminate; auto; right; repeat split; discriminate|]. split; [reflexivity|]. split.
  - unfold opened. do 3 eexists. split; [eexists; split; [vm_compute; reflexivity|reflexivity]|]. vm_compute. reflexivity.
  - unfold opened. do 2 eexists. split; [eexists; split; [vm_compute; reflexivity|reflexivity]|]. vm_compute. reflexivity.
Qed.

Print Assumptions C53_accepted_layout.
Print Assumptions C53_layout_accepted.
Print Assumptions C53_accepted_iff.
Print Assumptions C53_layout_unique.
