(** Writing and reading back: C25, C26 and the writing half of C15. *)
Require Import Coq.Lists.List Coq.NArith.NArith Coq.ZArith.ZArith Coq.Bool.Bool Coq.micromega.Lia.
Require Import Coq.Init.Byte.
Require Import ZifyBool ZifyNat ZifyN.
Require Import Verif.Base Verif.BaseFacts Verif.Utf8 Verif.Types Verif.Io Verif.IoFacts Verif.Parser Verif.MonadFacts Verif.Zlib Verif.Moves Verif.Loaders Verif.Spec Verif.ReadFacts Verif.ParserSteps Verif.ParserShape Verif.ParserHist Verif.ParserPos Verif.AttrLoad Verif.AttrAny Verif.PropsSafety Verif.Samples Verif.PropsAttr.
Require Import Verif.Base Verif.BaseFacts Verif.Utf8 Verif.Types Verif.Io Verif.IoFacts Verif.Parser Verif.MonadFacts Verif.ParserSteps Verif.Zlib Verif.Moves Verif.Loaders Verif.Spec Verif.SpecFacts Verif.ParserPos Verif.ParserSafe Verif.AttrLoad Verif.DocCursor Verif.FooterFacts Verif.ParserHist Verif.ParserRel Verif.PropsRel Verif.Peer Verif.PropsHeader Verif.DocTrace Verif.DocRef Verif.Samples.
Require Import Verif.Base Verif.BaseFacts Verif.Utf8 Verif.Types Verif.Io Verif.IoFacts Verif.Parser Verif.MonadFacts Verif.ParserSteps Verif.Loaders Verif.ParserPos Verif.Moves Verif.Writer Verif.WriterFacts Verif.Zlib Verif.Spec Verif.SpecFacts Verif.DocCursor Verif.FooterFacts Verif.WriterSpec Verif.WriterSim Verif.WriterNodes Verif.PropsHeader Verif.DocTrace Verif.DocRef Verif.PropsDoc Verif.PropsFooter Verif.PropsWriter Verif.Samples.
Import ListNotations.
Ltac Zify.zify_post_hook ::= Z.div_mod_to_equations.

(** The footer fields that a writer footer asks for, when the document's nodes are [ns]. *)
Definition foot_of {env : Env} (ver : N) (ns : list node) (f : wfooter) : foot :=
  let u1 := footer_field (wf_unknown1 f) spec_default1 in
  mkFoot u1 (N.to_nat (footer_pad f (27 + nodes_size ver ns + header_size ver + lenN u1))).

(** The footer has the prescribed second and third fields and less than 16 bytes of padding. *)
Definition standard (f : wfooter) : Prop :=
  footer_field (wf_unknown2 f) (zeros 4) = zeros 4 /\ footer_field (wf_unknown3 f) spec_trailer = spec_trailer /\
  match wf_padding f with PadDefault => True | PadForced n => (bN n < 16)%N end.

(** A file written by a client: a history of successful calls, then [finalize]. *)
Record finished {env : Env} (k : sink) (ver : N) (l : list wcall) (f : wfooter) (k' : sink) : Prop := mkFinished {
  fi_typed : wfooter_typed f;
  fi_len : (lenN (k_data k') < pow2_64)%N;
  fi_run : exists s fl s', wrote k ver l s /\ finalize fl f s = (Ok k', s')
}.
Definition nodes_of (l : list wcall) : list node := od_nodes (doc_calls l odoc_start).

Section WithEnv.
Context {env : Env}.

Lemma finished_bytes : forall k ver l f k', finished k ver l f k' ->
  doc_ok ver (nodes_of l) /\ exists ext, k_data k' = enc_finished ver (nodes_of l) f ++ ext.
Proof.
  intros k ver l f k' [HT HL (s & fl & s' & HW & HF)]. split; [eapply C29_finished_fits; eauto|].
  destruct (C27_finished _ _ _ _ _ _ _ _ HW HF) as (_ & D & _). eexists. exact D.
Qed.

Lemma spec_pad_lt : forall p, (spec_pad p < 16)%N.
Proof. intros p. unfold spec_pad. lia. Qed.

Lemma standard_doc : forall ver ns f, standard f -> enc_finished ver ns f = enc_doc ver ns (foot_of ver ns f).
Proof.
  intros ver ns f (H2 & H3 & _). unfold enc_finished, enc_doc, enc_wfooter, enc_footer, foot_of. cbn [ft_unknown1 ft_pad]. rewrite H2, H3. reflexivity.
Qed.
Lemma standard_foot : forall ver ns f, wfooter_typed f -> standard f -> foot_ok (foot_of ver ns f).
Proof.
  intros ver ns f (T1 & _ & _) (_ & _ & HP). unfold foot_ok, foot_of. cbn [ft_unknown1 ft_pad]. split.
  - unfold footer_field. destruct (wf_unknown1 f); [exact T1|reflexivity].
  - unfold footer_pad. destruct (wf_padding f); [pose proof (spec_pad_lt (27 + nodes_size ver ns + header_size ver + lenN (footer_field (wf_unknown1 f) spec_default1))); lia|lia].
Qed.

(** ** C26 *)

(** The file can be opened, whatever the way the stream delivers its bytes. *)
Theorem C26_opens : forall k ver l f k' sched seeks seekable h, finished k ver l f k' -> nofail sched = true ->
  exists p, opened (k_data k') sched seeks seekable h p /\ p_ver p = ver.
Proof.
  intros k ver l f k' sched seeks seekable h HF HN. destruct (finished_bytes _ _ _ _ _ HF) as [(V & _) (ext & ->)].
  set (data := enc_finished ver (nodes_of l) f ++ ext).
  assert (ED : exists rest, data = spec_magic ++ le_enc 4 ver ++ rest) by (eexists; unfold data, enc_finished; rewrite <- !app_assoc; reflexivity).
  destruct ED as (rest & ED). destruct (header_load_nofail (mkStream data 0 sched seeks) HN) as (sc' & _ & E). cbn [s_rem s_off s_seeks] in E.
  assert (L : (27 <= length data)%nat) by (rewrite ED, !app_length, le_enc_length; change (length spec_magic) with 23%nat; lia).
  replace (Nat.leb 23 (length data)) with true in E by (symmetry; apply Nat.leb_le; lia).
  replace (Nat.leb 27 (length data)) with true in E by (symmetry; apply Nat.leb_le; lia).
  assert (E1 : firstn 23 data = magic) by (rewrite ED; reflexivity). rewrite E1, (proj2 (bytes_eqb_eq _ _) eq_refl) in E.
  assert (E2 : le_dec (firstn 4 (skipn 23 data)) = ver).
  { rewrite ED. change (skipn 23 (spec_magic ++ ?x)) with x. rewrite firstn_app, firstn_all2 by (rewrite le_enc_length; auto).
    rewrite le_enc_length. cbn [Nat.sub firstn]. rewrite app_nil_r. apply le_dec_enc. apply u4_ver. exact V. }
  rewrite E2 in E. pose proof (C02_parser_creation (mkStream data 0 sched seeks) seekable) as K. rewrite E in K.
  replace ((7000 <=? ver) && (ver <=? 7999))%N with true in K by lia. destruct K as (p & K & KV & _).
  exists (set_handler h p). split; [exists p; auto|exact KV].
Qed.

(** Any calls of a client that reads the file with the direct loader — events, attribute
    loads, node skips, in any order — give exactly what the reference reader says about the
    nodes written. *)
Theorem C26_document_round_trip : forall k ver l f k', zlib_roundtrip env -> finished k ver l f k' -> standard f ->
  let ns := nodes_of l in let ft := foot_of ver ns f in
  forall sched seeks h p, nofail sched = true -> noseekfail seeks = true -> accepting h -> opened (k_data k') sched seeks true h p ->
  forall calls os r', ref_run (footer_warnings ver ns ft) (ref_start ver ns ft) calls os r' ->
  exists rs s', run_pos (map op_of calls) p = (rs, s') /\ Forall2 sees rs os /\ map fst (p_log s') = rf_warn r'.
Proof.
  intros k ver l f k' HZ HF HST ns ft sched seeks h p HN HK HA HO calls os r' HR.
  destruct (finished_bytes _ _ _ _ _ HF) as [HD (ext & E)]. rewrite (standard_doc _ _ _ HST) in E.
  apply (C26_reader_agrees_with_document ver ns ft ext p HZ); [|exact HR]. constructor.
  - exact HD.
  - apply standard_foot; [apply HF|exact HST].
  - unfold ft, ns. rewrite <- E. apply HF.
  - exists sched, seeks, h. unfold ft, ns. rewrite <- E. auto.
Qed.

(** With the default footer the only warnings are about empty names. *)
Definition default_footer : wfooter := mkWF None PadDefault None None.
Lemma default_standard : standard default_footer. Proof. split; [reflexivity|]. split; [reflexivity|exact I]. Qed.

Lemma default_warnings : forall ver ns, footer_warnings ver ns (foot_of ver ns default_footer) = [].
Proof.
  intros ver ns. unfold footer_warnings, pad_warnings, nib_warnings, foot_of. cbn [ft_pad ft_unknown1 default_footer wf_unknown1 footer_field footer_pad wf_padding].
  change (nibbles_ok spec_default1) with true. change (lenN spec_default1) with 16%N.
  rewrite N2Nat.id, N.eqb_refl. reflexivity.
Qed.
Lemma ref_warnings : forall fw r calls os r', ref_run fw r calls os r' -> Forall (eq EmptyNodeName) fw -> Forall (eq EmptyNodeName) (rf_warn r) -> Forall (eq EmptyNodeName) (rf_warn r').
Proof.
  intros fw r calls os r' H HF. induction H as [|r c l o p r1 os r2 E H IH]; intros K; [exact K|]. apply IH. clear IH H.
  destruct c; cbn [ref_call] in E.
  - destruct (rf_trace r) as [|[e q] t]; [discriminate|]. injection E as _ _ <-.
    destruct e as [[|]| |]; cbn [rf_warn event_warnings app]; auto. apply Forall_app; auto.
  - destruct (rf_cur r) as [[|v vs]|]; injection E as _ _ <-; exact K.
  - destruct (drop_close 0 (rf_trace r) (rf_atts r)) as [[[q t] A]|]; [|discriminate]. injection E as _ _ <-. exact K.
Qed.

Theorem C26_no_warnings : forall k ver l k', zlib_roundtrip env -> finished k ver l default_footer k' ->
  let ns := nodes_of l in let ft := foot_of ver ns default_footer in
  forall sched seeks h p, nofail sched = true -> noseekfail seeks = true -> accepting h -> opened (k_data k') sched seeks true h p ->
  forall calls os r' rs s', ref_run [] (ref_start ver ns ft) calls os r' -> run_pos (map op_of calls) p = (rs, s') ->
  Forall (eq EmptyNodeName) (map fst (p_log s')).
Proof.
  intros k ver l k' HZ HF ns ft sched seeks h p HN HK HA HO calls os r' rs s' HR HX.
  pose proof (default_warnings ver ns) as W. fold ft in W.
  destruct (C26_document_round_trip _ _ _ _ _ HZ HF default_standard sched seeks h p HN HK HA HO calls os r') as (rs1 & s1 & E & _ & L).
  - fold ns ft. rewrite W. exact HR.
  - rewrite HX in E. injection E as <- <-. rewrite L. eapply ref_warnings; [exact HR|constructor|constructor].
Qed.

(** ** C25 *)

(** Reading nodes followed by an end marker and any other bytes. *)
Lemma opened_tail_at : forall ver ns tail sched seeks seekable h p, doc_ok ver ns ->
  let data := spec_magic ++ le_enc 4 ver ++ enc_nodes ver 27 ns ++ end_marker ver ++ tail in
  (lenN data < pow2_64)%N -> nofail sched = true -> noseekfail seeks = true -> accepting h ->
  opened data sched seeks seekable h p ->
  at_cur ver (27 + nodes_size ver ns) tail (c_init ns) p /\ r_seekable (p_rd p) = seekable /\ p_log p = [].
Proof.
  intros ver ns tail sched seeks seekable h p (V & N1 & N2 & N3 & N4) data HL Hs Hk Hh Ho.
  destruct (opened_calm _ _ _ _ _ _ Hs Hk Ho) as [Hc Hv].
  destruct (opened_init _ _ _ _ _ _ Ho) as (I1 & I2 & I3 & I4 & I5 & I6 & I7 & I8 & I9 & I10 & I11 & I12 & I13).
  assert (U4 : u_ok 4 ver) by (apply u4_ver; exact V).
  assert (EV : p_ver p = ver).
  { rewrite Hv. unfold data. change (skipn 23 (spec_magic ++ ?x)) with x. rewrite firstn_app, firstn_all2 by (rewrite le_enc_length; auto).
    rewrite le_enc_length. cbn [Nat.sub firstn]. rewrite app_nil_r. apply le_dec_enc. exact U4. }
  assert (ER : rem_of p = enc_nodes ver 27 ns ++ end_marker ver ++ tail).
  { unfold rem_of. rewrite I11. unfold data. rewrite app_assoc.
    change (dropN 27) with (dropN (A := byte) (23 + N.of_nat 4)). rewrite <- (le_enc_lenN 4 ver). change 23%N with (lenN spec_magic). rewrite <- lenN_app. apply dropN_app_len. }
  split; [|auto].
  apply init_at; auto.
  - clear - N1 N2. induction N1; [constructor|]. inversion N2; subst. constructor; [split; assumption|auto].
  - lia.
  - unfold accepts. rewrite I5. exact Hh.
  - split; [exact Hc|]. unfold room. unfold rem_of in ER. rewrite ER, I8. unfold data in HL. rewrite app_assoc, lenN_app, lenN_app, le_enc_lenN in HL. change (lenN spec_magic) with 23%N in HL. lia.
Qed.

(** The event of the end of the document tells what follows the nodes. *)
Definition fbx_of (ver pos : N) (tail : list byte) (log : list (warning * synpos)) (x : perr + footer) (log' : list (warning * synpos)) : Prop :=
  match x with
  | inr ft => exists f ext, foot_ok f /\ tail = enc_footer ver f ++ ext /\ ft = footer_of ver f /\
      log' = pad_warnings pos (ft_pad f) ++ nib_warnings pos (ft_unknown1 f) ++ log
  | inl e => forall f ext, foot_ok f -> tail <> enc_footer ver f ++ ext
  end.

Lemma next_whole : forall ver c d c', d = next_of ver c -> match d with DStart _ c1 | DEnd c1 => c1 = c' | DFbx => False end ->
  c_done c' ++ c_rest c' = c_done c ++ c_rest c.
Proof.
  intros ver c d c' -> H. unfold next_of in H. destruct (c_frames c) as [|f fs]; [destruct (c_rest c) as [|k r]; [contradiction|]|destruct (d_rest f)]; subst c'; cbn [c_done c_rest]; rewrite <- ?app_assoc; reflexivity.
Qed.

Lemma op_tail : forall ver lim tail, u_ok (width ver) lim -> u_ok 4 ver -> zlib_roundtrip env ->
  forall O (o : op O) c s r s', at_cur ver lim tail c s -> r_seekable (p_rd s) = true -> run_op o s = (Ok r, s') ->
  (exists c', at_cur ver lim tail c' s' /\ r_seekable (p_rd s') = true /\ c_done c' ++ c_rest c' = c_done c ++ c_rest c /\ forall x, r <> BEvent (EvEndFbx x)) \/
  (exists x, r = BEvent (EvEndFbx x) /\ fbx_of ver (c_pos ver c + header_size ver) tail (p_log s) x (p_log s') /\ c_frames c = [] /\ c_rest c = [] /\ p_health s' = Finished /\ p_stack s' = [] /\ p_attrs s' = None).
Proof.
  intros ver lim tail HV H4 HZ O o c s r s' H Hs E.
  assert (LD : forall b (ld : loader O), run_op (load_of b ld) s = (Ok r, s') ->
     exists c', at_cur ver lim tail c' s' /\ r_seekable (p_rd s') = true /\ c_done c' ++ c_rest c' = c_done c ++ c_rest c /\ forall x, r <> BEvent (EvEndFbx x)).
  { intros b ld E'. assert (load_ready s) as Hl by (left; exact Hs).
    pose proof (run_load ver lim _ HZ O b ld c s r s' H Hl E') as K. destruct (c_attrs c) as [[|a ats]|].
    - destruct K as [-> ->]. exists c. split; [exact H|]. split; [exact Hs|]. split; [reflexivity|discriminate].
    - destruct K as ((v & ->) & K & (_ & _ & K3)). exists (c_load c ats). split; [exact K|]. split; [congruence|]. split; [|discriminate]. try reflexivity.
    - destruct K as [-> ->]. exists c. split; [exact H|]. split; [exact Hs|]. split; [reflexivity|discriminate]. }
  destruct o as [|l|l|].
  - destruct (next_of ver c) as [k c'|c'|] eqn:Hn.
    + destruct (run_start ver lim tail HV O _ _ _ _ H (or_introl Hs) Hn) as (s1 & E1 & Hc & _ & _ & Hs1 & _). rewrite E1 in E. injection E as <- <-.
      left. exists c'. split; [exact Hc|]. split; [congruence|]. split; [|discriminate]. apply (next_whole ver) with (d := next_of ver c); [reflexivity|]. rewrite Hn. reflexivity.
    + destruct (run_end ver lim tail O _ _ _ H (or_introl Hs) Hn) as (s1 & E1 & Hc & (_ & _ & Hs1)). rewrite E1 in E. injection E as <- <-.
      left. exists c'. split; [exact Hc|]. split; [congruence|]. split; [|discriminate]. apply (next_whole ver) with (d := next_of ver c); [reflexivity|]. rewrite Hn. reflexivity.
    + right. destruct (run_fbx ver lim tail O c s H (or_introl Hs) Hn) as (s1 & E1 & A1 & A2 & A3 & A4 & A5 & A6 & A7 & A8 & (A9 & _)).
      rewrite E1 in E. pose proof (done_rest ver c) as DR. rewrite Hn in DR. 
      destruct (footer_read s1 ver A5 A4 A3 H4) as (rf & s2 & E2 & K).
      unfold bind, try_ in E. rewrite E2 in E.
      assert (FF : rf <> Panic -> p_health s2 = Finished /\ p_stack s2 = [] /\ p_attrs s2 = None).
      { intros NP. assert (Q : quieta s1 s2) by (eapply steps_elim; [apply read_footer_quiet|exact E2|exact NP]).
        destruct Q as ((_ & Q1 & Q2 & _) & Q3). repeat split; congruence. }
      destruct rf as [ft|e|]; [| |contradiction].
      * injection E as <- <-. exists (inr ft). split; [reflexivity|]. split.
        { destruct K as (f & ext & K1 & K2 & K3 & _ & _ & _ & K6). exists f, ext. rewrite A6 in K2. rewrite A7 in K6. rewrite K6. rewrite A9. auto. }
        destruct DR as [-> ->]. split; [reflexivity|]. split; [reflexivity|]. apply FF. discriminate.
      * injection E as <- <-. exists (inl e). split; [reflexivity|]. split.
        { destruct K as [_ K]. intros f ext Hf X. apply (K f ext Hf). congruence. }
        destruct DR as [-> ->]. split; [reflexivity|]. split; [reflexivity|]. apply FF. discriminate.
  - left. apply (LD false l E).
  - left. apply (LD true l E).
  - left. assert (NS := skip_needs_node O s r s' E). rewrite (sh_stack _ _ _ (ac_shape _ _ _ _ _ H)) in NS.
    destruct (c_frames c) as [|f fs] eqn:Ef; [contradiction|].
    destruct (run_skip ver lim _ O c s f fs H Ef Hs) as (s1 & E1 & K & (_ & _ & K2)). rewrite E1 in E. injection E as <- <-.
    exists (c_skip c). split; [exact K|]. split; [congruence|]. split; [|discriminate]. try reflexivity.
Qed.

Definition over (s : pstate) : Prop := p_health s = Finished /\ p_stack s = [] /\ p_attrs s = None.
Lemma over_op : forall O (o : op O) s r s', over s -> run_op o s = (Ok r, s') -> o <> ONext /\ s' = s.
Proof.
  intros O o s r s' (H1 & H2 & H3) E. destruct o as [|l|l|].
  - exfalso. unfold run_op in E. rewrite bind_modify in E. unfold next_event in E.
    unfold bind, gets, ensure_continuable in E. cbn [set_attrs p_health] in E. rewrite H1 in E. discriminate E.
  - unfold run_op in E. rewrite bind_gets, H3 in E. injection E as <- <-. split; [discriminate|reflexivity].
  - unfold run_op in E. rewrite bind_gets, H3 in E. injection E as <- <-. split; [discriminate|reflexivity].
  - exfalso. exact (skip_needs_node _ _ _ _ E H2).
Qed.

Lemma run_ops_cons_ok : forall O (o : op O) l s rs s', run_ops (o :: l) s = (rs, s') -> Forall is_ok rs ->
  exists r s1 rs1, run_op o s = (Ok r, s1) /\ run_ops l s1 = (rs1, s') /\ Forall is_ok rs1 /\ rs = Ok r :: rs1.
Proof.
  intros O o l s rs s' E H. cbn [run_ops] in E. destruct (run_op o s) as [[r|e|] s1].
  - destruct (run_ops l s1) as [rs1 s2] eqn:E2. injection E as <- <-. inversion H; subst. eauto 8.
  - destruct (run_ops l s1) as [rs1 s2]. injection E as <- <-. inversion H as [|? ? X]. destruct X.
  - injection E as <- <-. inversion H as [|? ? X]. destruct X.
Qed.

Lemma ops_tail : forall ver lim tail, u_ok (width ver) lim -> u_ok 4 ver -> zlib_roundtrip env ->
  forall O (l : list (op O)) c s rs s', at_cur ver lim tail c s -> r_seekable (p_rd s) = true -> run_ops l s = (rs, s') -> Forall is_ok rs ->
  (exists c', at_cur ver lim tail c' s' /\ r_seekable (p_rd s') = true /\ c_done c' ++ c_rest c' = c_done c ++ c_rest c) \/ over s'.
Proof.
  intros ver lim tail HV H4 HZ O. induction l as [|o l IH]; intros c s rs s' H Hs E Hok.
  - injection E as <- <-. left. eauto.
  - destruct (run_ops_cons_ok _ _ _ _ _ _ E Hok) as (r & s1 & rs1 & E1 & E2 & Hok1 & _).
    destruct (op_tail ver lim tail HV H4 HZ O o c s r s1 H Hs E1) as [(c' & A & B & C & _)|(x & _ & _ & _ & _ & F)].
    + destruct (IH c' s1 rs1 s' A B E2 Hok1) as [(c2 & D1 & D2 & D3)|K]; [left; exists c2; split; [exact D1|]; split; [exact D2|congruence]|right; exact K].
    + right. clear - E2 Hok1 F. revert s1 rs1 F E2 Hok1. induction l as [|o l IH]; intros s1 rs1 F E2 Hok1.
      * injection E2 as <- <-. exact F.
      * destruct (run_ops_cons_ok _ _ _ _ _ _ E2 Hok1) as (r & s2 & rs2 & G1 & G2 & Hok2 & _).
        destruct (over_op _ _ _ _ _ F G1) as [_ ->]. eapply IH; eauto.
Qed.

(** Only standard footers look like footers. *)
Lemma le4 : forall v, le_enc 4 v = [Nb v; Nb (v / 256); Nb (v / 256 / 256); Nb (v / 256 / 256 / 256)]%N.
Proof. intros v. reflexivity. Qed.
Lemma nth_zeros : forall i n, nth i (zeros n) x00 = x00.
Proof. intros i n. revert i. induction n as [|n IH]; intros [|i]; cbn [zeros repeat nth]; auto. Qed.

Lemma only_standard : forall ver start f g ext ext', wfooter_typed f -> (7000 <= ver <= 7999)%N -> foot_ok g ->
  enc_wfooter ver start f ++ ext = enc_footer ver g ++ ext' -> standard f.
Proof.
  intros ver start f g ext ext' (T1 & T2 & T3) HV [G1 G2] E. unfold enc_wfooter, enc_footer in E.
  set (u1 := footer_field (wf_unknown1 f) spec_default1) in *. set (u2 := footer_field (wf_unknown2 f) (zeros 4)) in *. set (u3 := footer_field (wf_unknown3 f) spec_trailer) in *.
  assert (L1 : length u1 = 16%nat) by (unfold u1, footer_field; destruct (wf_unknown1 f); [exact T1|reflexivity]).
  assert (L2 : length u2 = 4%nat) by (unfold u2, footer_field; destruct (wf_unknown2 f); [exact T2|reflexivity]).
  assert (L3 : length u3 = 16%nat) by (unfold u3, footer_field; destruct (wf_unknown3 f); [exact T3|reflexivity]).
  rewrite <- !app_assoc in E. apply app_eq_len in E; [|congruence]. destruct E as [_ E].
  set (p := N.to_nat (footer_pad f (start + lenN u1))) in *. set (q := ft_pad g) in *. clearbody q.
  assert (PE : p = q).
  { set (A := zeros p ++ u2 ++ le_enc 4 ver ++ zeros 120 ++ u3 ++ ext) in *. set (B := zeros q ++ zeros 4 ++ le_enc 4 ver ++ zeros 120 ++ spec_trailer ++ ext') in *.
    assert (V1 : Nb (ver / 256) <> x00) by (intros X; apply (f_equal bN) in X; rewrite bN_Nb in X; change (bN x00) with 0%N in X; lia).
    assert (V2 : Nb (ver / 256 / 256) = x00) by (replace (ver / 256 / 256)%N with 0%N by lia; reflexivity).
    assert (V3 : Nb (ver / 256 / 256 / 256) = x00) by (replace (ver / 256 / 256 / 256)%N with 0%N by lia; reflexivity).
    assert (NA : nth (p + 5) A x00 = Nb (ver / 256)).
    { unfold A. rewrite app_nth2 by (rewrite zeros_length; lia). rewrite zeros_length. rewrite app_nth2 by lia. replace (p + 5 - p - length u2)%nat with 1%nat by lia. rewrite le4. reflexivity. }
    assert (NA6 : nth (p + 6) A x00 = x00).
    { unfold A. rewrite app_nth2 by (rewrite zeros_length; lia). rewrite zeros_length. rewrite app_nth2 by lia. replace (p + 6 - p - length u2)%nat with 2%nat by lia. rewrite le4. cbn [nth app]. exact V2. }
    assert (NAz : forall i, (i < p)%nat -> nth i A x00 = x00).
    { intros i Hi. unfold A. rewrite app_nth1 by (rewrite zeros_length; lia). apply nth_zeros. }
    assert (NB : nth (q + 5) B x00 = Nb (ver / 256)).
    { unfold B. rewrite app_nth2 by (rewrite zeros_length; lia). rewrite zeros_length. rewrite app_nth2 by (rewrite zeros_length; lia). rewrite zeros_length. replace (q + 5 - q - 4)%nat with 1%nat by lia. rewrite le4. reflexivity. }
    assert (NBz : forall i, (i < q + 4 \/ q + 6 <= i < q + 128)%nat -> nth i B x00 = x00).
    { intros i Hi. unfold B. destruct (Nat.lt_ge_cases i q); [rewrite app_nth1 by (rewrite zeros_length; lia); apply nth_zeros|].
      rewrite app_nth2 by (rewrite zeros_length; lia). rewrite zeros_length. destruct (Nat.lt_ge_cases i (q + 4)); [rewrite app_nth1 by (rewrite zeros_length; lia); apply nth_zeros|].
      rewrite app_nth2 by (rewrite zeros_length; lia). rewrite zeros_length.
      destruct (Nat.lt_ge_cases i (q + 8)).
      - rewrite le4. assert (i - q - 4 = 2 \/ i - q - 4 = 3)%nat as [-> | ->] by lia; cbn [nth app]; assumption.
      - rewrite app_nth2 by (rewrite le_enc_length; lia). rewrite le_enc_length. rewrite app_nth1 by (rewrite zeros_length; lia). apply nth_zeros. }
    rewrite E in *. destruct (Nat.eq_dec p q) as [X|X]; [exact X|exfalso].
    destruct (Nat.lt_ge_cases (p + 5) (q + 4)); [rewrite NBz in NA by lia; congruence|].
    destruct (Nat.eq_dec (p + 5) (q + 4)); [replace (p + 6)%nat with (q + 5)%nat in NA6 by lia; congruence|].
    destruct (Nat.lt_ge_cases (p + 5) (q + 128)); [rewrite NBz in NA by lia; congruence|].
    rewrite NAz in NB by lia. congruence. }
  rewrite PE in E. apply app_inv_head in E. apply app_eq_len in E; [|rewrite L2; reflexivity]. destruct E as [E2 E].
  apply app_inv_head in E. apply app_inv_head in E. apply app_eq_len in E; [|rewrite L3; reflexivity]. destruct E as [E3 _].
  split; [exact E2|]. split; [exact E3|]. unfold p, footer_pad in PE. destruct (wf_padding f); [exact I|]. lia.
Qed.

Theorem C25_footer_read_back : forall k ver l f k', zlib_roundtrip env -> finished k ver l f k' ->
  forall sched seeks h p, nofail sched = true -> noseekfail seeks = true -> accepting h -> opened (k_data k') sched seeks true h p ->
  forall O (ops : list (op O)) rs s x s', run_ops ops p = (rs, s) -> Forall is_ok rs ->
  run_op (@ONext O) s = (Ok (BEvent (EvEndFbx x)), s') ->
  let u1 := footer_field (wf_unknown1 f) spec_default1 in
  let start := (27 + nodes_size ver (nodes_of l) + header_size ver)%N in
  (standard f -> x = inr (mkFooter u1 (footer_pad f (start + 16)) (zeros 4) ver spec_trailer)) /\
  (~ standard f -> exists e, x = inl e) /\
  (standard f -> wf_padding f = PadDefault -> exists new, p_log s' = new ++ p_log s /\
     Forall (eq UnexpectedFooterFieldValue) (map fst new)).
Proof.
  intros k ver l f k' HZ HF sched seeks h p HN HK HA HO O ops rs s x s' HR Hok HX u1 start.
  destruct (finished_bytes _ _ _ _ _ HF) as [HD (ext & ED)].
  assert (V : (7000 <= ver <= 7999)%N) by apply HD.
  assert (HU : u_ok (width ver) (27 + nodes_size ver (nodes_of l))) by (destruct HD as (_ & _ & _ & HD & _); exact HD).
  assert (HT := fi_typed _ _ _ _ _ HF).
  assert (LU : lenN u1 = 16%N). { unfold u1, footer_field. destruct HT as (T1 & _). destruct (wf_unknown1 f); [unfold lenN; rewrite T1|]; reflexivity. }
  set (tail := enc_wfooter ver start f ++ ext).
  assert (EK : k_data k' = spec_magic ++ le_enc 4 ver ++ enc_nodes ver 27 (nodes_of l) ++ end_marker ver ++ tail).
  { rewrite ED. unfold enc_finished, tail. rewrite <- !app_assoc. reflexivity. }
  assert (HL := fi_len _ _ _ _ _ HF). rewrite EK in HO, HL.
  destruct (opened_tail_at _ _ _ _ _ _ _ _ HD HL HN HK HA HO) as (HC & HSK & _).
  destruct (ops_tail ver _ tail HU (u4_ver _ V) HZ O ops _ _ _ _ HC HSK HR Hok) as [(c & Hc & Hsk & EW)|HO2].
  2:{ exfalso. destruct (over_op _ _ _ _ _ HO2 HX) as [X _]. apply X. reflexivity. }
  destruct (op_tail ver _ tail HU (u4_ver _ V) HZ O ONext c s _ s' Hc Hsk HX) as [(c' & _ & _ & _ & X)|(x' & EX & HB & F1 & F2 & _)]; [exfalso; eapply X; reflexivity|].
  injection EX as <-. rewrite F2, app_nil_r in EW. cbn [c_init c_done c_rest app] in EW.
  assert (EP : (c_pos ver c + header_size ver)%N = start) by (unfold c_pos; rewrite F1, EW; reflexivity). rewrite EP in HB.
  assert (ST : standard f -> tail = enc_footer ver (foot_of ver (nodes_of l) f) ++ ext).
  { intros (S2 & S3 & _). unfold tail, enc_wfooter, enc_footer, foot_of. cbn [ft_unknown1 ft_pad]. rewrite S2, S3. reflexivity. }
  assert (GOOD : standard f -> exists ft, x = inr ft /\ ft = footer_of ver (foot_of ver (nodes_of l) f) /\
     p_log s' = pad_warnings start (ft_pad (foot_of ver (nodes_of l) f)) ++ nib_warnings start u1 ++ p_log s).
  { intros HST. pose proof (standard_foot ver (nodes_of l) f HT HST) as FO. destruct x as [e|ft]; cbn [fbx_of] in HB.
    - exfalso. exact (HB _ _ FO (ST HST)).
    - destruct HB as (g & ext' & G1 & G2 & -> & G4). rewrite (ST HST) in G2. destruct (footer_unique _ _ _ _ _ FO G1 G2) as [<- _]. exists (footer_of ver (foot_of ver (nodes_of l) f)). auto. }
  split; [|split].
  - intros HST. destruct (GOOD HST) as (ft & -> & -> & _). f_equal. unfold footer_of, foot_of. cbn [ft_unknown1 ft_pad]. fold u1 start. rewrite LU, N2Nat.id. reflexivity.
  - intros NST. destruct x as [e|ft]; [eauto|]. exfalso. destruct HB as (g & ext' & G1 & G2 & _). apply NST.
    eapply only_standard; [exact HT|exact V|exact G1|exact G2].
  - intros HST HP. destruct (GOOD HST) as (ft & _ & _ & EL). exists (nib_warnings start u1). rewrite EL. split.
    + unfold pad_warnings, foot_of. cbn [ft_pad]. fold u1 start. unfold footer_pad. rewrite HP, LU, N2Nat.id, N.eqb_refl. reflexivity.
    + unfold nib_warnings. destruct (nibbles_ok u1); repeat constructor.
Qed.

(** With the default padding the file is a multiple of 16 bytes long. *)
Theorem C25_default_padding_aligns : forall k ver l f k', finished k ver l f k' -> wf_padding f = PadDefault ->
  (k_pos k' mod 16 = 0)%N.
Proof.
  intros k ver l f k' [(T1 & T2 & T3) HL (s & fl & s' & HW & HF)] HP.
  destruct (C27_finished _ _ _ _ _ _ _ _ HW HF) as (_ & _ & P). rewrite P. clear P.
  set (ns := od_nodes (doc_calls l odoc_start)). unfold enc_finished, enc_wfooter.
  set (u1 := footer_field (wf_unknown1 f) spec_default1) in *. set (u2 := footer_field (wf_unknown2 f) (zeros 4)) in *. set (u3 := footer_field (wf_unknown3 f) spec_trailer) in *.
  assert (L1 : lenN u1 = 16%N) by (unfold u1, footer_field; destruct (wf_unknown1 f); [unfold lenN; rewrite T1|]; reflexivity).
  assert (L2 : lenN u2 = 4%N) by (unfold u2, footer_field; destruct (wf_unknown2 f); [unfold lenN; rewrite T2|]; reflexivity).
  assert (L3 : lenN u3 = 16%N) by (unfold u3, footer_field; destruct (wf_unknown3 f); [unfold lenN; rewrite T3|]; reflexivity).
  rewrite !lenN_app, !le_enc_lenN, enc_nodes_len', end_marker_len, L1, L2, L3. change (lenN spec_magic) with 23%N. change (lenN (zeros 120)) with 120%N.
  unfold footer_pad. rewrite HP. assert (LZ : forall n, lenN (zeros n) = N.of_nat n) by (intros n; unfold lenN; rewrite zeros_length; reflexivity). rewrite LZ, N2Nat.id. unfold spec_pad. lia.
Qed.

(** ** C15: an attribute that was written is read back *)

(** A successful call on an [AttributesWriter], at any position of any sink, overwrites the
    bytes after the position by some bytes [bs]; wherever a parser finds these as its next
    attribute, [DirectLoader] returns the value given to the call, and the parser stands at
    the bytes after them. *)
Theorem C15_written_attribute_reads_back : forall c w w', zlib_roundtrip env -> acall_typed c -> faithful c ->
  (k_pos (w_sink w) <= lenN (k_data (w_sink w)))%N -> (k_pos (w_sink w) < pow2_63)%N ->
  run_acall c w = (Ok tt, w') ->
  exists a bs, attr_of c = Some a /\
    k_data (w_sink w') = takeN (k_pos (w_sink w)) (k_data (w_sink w)) ++ bs ++ dropN (k_pos (w_sink w) + lenN bs) (k_data (w_sink w)) /\
    k_pos (w_sink w') = (k_pos (w_sink w) + lenN bs)%N /\
    forall b s n rest, next_at s n (bs ++ rest) -> (1 <= n)%N ->
    exists s', run_op (load_op b direct_loader) s = (Ok (BAttr (Some (at_val a))), s') /\ next_at s' (n - 1) rest.
Proof.
  intros c w w' HZ HT HF HP H63 E. set (pos := k_pos (w_sink w)) in *. set (data := k_data (w_sink w)) in *.
  assert (LT : lenN (takeN pos data) = pos) by (rewrite lenN_takeN; lia).
  assert (A : at_ (takeN pos data) (dropN pos data) (w_sink w)).
  { split; [symmetry; apply takeN_dropN|]. rewrite LT. auto. }
  destruct (acall_ok _ _ _ _ _ _ HT HF E A) as (a & EA & (_ & (D & P & _) & _) & AO).
  exists a, (enc_attr a). split; [exact EA|]. split; [rewrite D, <- app_assoc, dropN_dropN; reflexivity|]. split; [rewrite P, lenN_app, LT; reflexivity|].
  intros b s n rest HN H1. destruct (next_at_direct HZ b s _ a _ HN H1 AO) as (s1 & E1). exists s1. split.
  - rewrite load_op_run by (eapply next_at_attrs; eauto). unfold bind. rewrite E1. reflexivity.
  - eapply next_at_step; eauto.
Qed.
End WithEnv.

(** ** Concrete cases *)
Module RoundCases.
Import Cases.
Definition done0 (f : wfooter) : sink := match finalize true f (st0 7400) with (Ok k, _) => k | _ => k0 end.
Definition odd_footer : wfooter := mkWF (Some (repeat x0f 16)) (PadForced x03) None None.
Definition bad_footer : wfooter := mkWF None (PadForced x11) (Some [x00; x00; x00; x01]) None.
Lemma finished0 : forall f, In f [default_footer; odd_footer; bad_footer] -> finished (env := release) k0 7400 calls0 f (done0 f).
Proof.
  intros f H. repeat (destruct H as [<-|H]; [constructor; [repeat split|vm_compute; reflexivity|exists (st0 7400), true; eexists; split; [apply wrote0; cbn; auto|vm_compute; reflexivity]]|]). contradiction.
Qed.
(** The client opens the file over a stream that gives it byte by byte, skips the first node
    and reads on to the end. *)
Definition read0 (f : wfooter) : res any_error (list (res perr (obs aval)) * list (warning * synpos)) :=
  match open_bytes (k_data (done0 f)) [AChunk 1; AChunk 2] true with
  | Ok p => let '(rs, s) := run_ops (env := release) [ONext; OSkip; ONext; OLoad direct_loader; ONext; ONext] p in Ok (rs, p_log s)
  | Err e => Err e
  | Panic => Panic
  end.
Example C25_default_ex : exists pad log, read0 default_footer = Ok
  ([Ok (BEvent (EvStart s_a)); Ok BSkipped; Ok (BEvent (EvStart s_c)); Ok (BAttr (Some (VArrI32 [1; -2; 3]%Z))); Ok (BEvent EvEnd);
    Ok (BEvent (EvEndFbx (inr (mkFooter spec_default1 pad (zeros 4) 7400 spec_trailer))))], log) /\ log = [].
Proof. do 2 eexists. split; vm_compute; reflexivity. Qed.
Example C25_odd_ex : exists log, read0 odd_footer = Ok
  ([Ok (BEvent (EvStart s_a)); Ok BSkipped; Ok (BEvent (EvStart s_c)); Ok (BAttr (Some (VArrI32 [1; -2; 3]%Z))); Ok (BEvent EvEnd);
    Ok (BEvent (EvEndFbx (inr (mkFooter (repeat x0f 16) 3 (zeros 4) 7400 spec_trailer))))], log) /\ length log = 2%nat.
Proof. eexists. split; vm_compute; reflexivity. Qed.
Example C25_bad_ex : exists e log, read0 bad_footer = Ok
  ([Ok (BEvent (EvStart s_a)); Ok BSkipped; Ok (BEvent (EvStart s_c)); Ok (BAttr (Some (VArrI32 [1; -2; 3]%Z))); Ok (BEvent EvEnd);
    Ok (BEvent (EvEndFbx (inl e)))], log).
Proof. do 2 eexists. vm_compute. reflexivity. Qed.
Example C26_ex : exists p os r', opened (k_data (done0 default_footer)) [AChunk 1; AIntr; AChunk 5] [] true None p /\
  ref_run [] (ref_start (env := release) 7400 (nodes_of calls0) (foot_of (env := release) 7400 (nodes_of calls0) default_footer))
    [CNext; CLoad true; CNext; CNext; CSkip; CNext; CLoad false; CNext; CNext] os r' /\ length os = 9%nat.
Proof.
  destruct (C26_opens (env := release) k0 7400 calls0 default_footer _ [AChunk 1; AIntr; AChunk 5] [] true None (finished0 default_footer ltac:(cbn; auto)) eq_refl) as (p & HO & _).
  exists p. do 2 eexists. split; [exact HO|]. split; [|].
  - repeat (eapply RefCons; [vm_compute; reflexivity|]). apply RefNil.
  - reflexivity.
Qed.
Example C15_ex : exists w', run_acall (env := release) (AArray (Some EncZlib) (LF64 [0; 9218868437227405312]%N) false) st1 = (Ok tt, w').
Proof. eexists. vm_compute. reflexivity. Qed.
End RoundCases.
