(** Reading well-formed documents: C12, C22, C24 and the reading half of C26. *)
Require Import Coq.Lists.List Coq.NArith.NArith Coq.ZArith.ZArith Coq.Bool.Bool Coq.micromega.Lia.
Require Import Coq.Init.Byte.
Require Import ZifyBool ZifyNat ZifyN.
Require Import Verif.Base Verif.BaseFacts Verif.Utf8 Verif.Types Verif.Io Verif.IoFacts Verif.Parser Verif.MonadFacts Verif.ParserSteps Verif.Zlib Verif.Moves Verif.Loaders Verif.Spec Verif.SpecFacts Verif.ParserPos Verif.ParserSafe Verif.AttrLoad Verif.DocCursor Verif.FooterFacts Verif.ParserHist Verif.ParserRel Verif.PropsRel Verif.Peer Verif.PropsHeader Verif.DocTrace Verif.DocRef Verif.Samples.
Import ListNotations.
Ltac Zify.zify_post_hook ::= Z.div_mod_to_equations.

Definition accepting (h : option handler) : Prop := match h with None => True | Some f => forall log, f log = None end.

(** A parser just created on a well-formed document followed by any other bytes, over a
    stream that delivers its bytes in any pieces but does not fail. *)
Record opened_doc {env : Env} (ver : N) (ns : list node) (f : foot) (ext : list byte) (seekable : bool) (p : pstate) : Prop := mkOpenedDoc {
  od_doc : doc_ok ver ns;
  od_foot : foot_ok f;
  od_len : (lenN (enc_doc ver ns f ++ ext) < pow2_64)%N;
  od_open : exists sched seeks h, nofail sched = true /\ noseekfail seeks = true /\ accepting h /\
              opened (enc_doc ver ns f ++ ext) sched seeks seekable h p
}.

Section WithEnv.
Context {env : Env}.

Lemma enc_doc_eq : forall ver ns f ext, enc_doc ver ns f ++ ext = spec_magic ++ le_enc 4 ver ++ enc_nodes ver 27 ns ++ end_marker ver ++ enc_footer ver f ++ ext.
Proof. intros. unfold enc_doc. rewrite <- !app_assoc. reflexivity. Qed.

Lemma opened_calm : forall data sched seeks seekable h p, nofail sched = true -> noseekfail seeks = true ->
  opened data sched seeks seekable h p -> calm p /\ p_ver p = le_dec (firstn 4 (skipn 23 data)).
Proof.
  intros data sched seeks seekable h p H1 H2 (p0 & E & ->). unfold any_parser in E.
  destruct (header_load_nofail (mkStream data 0 sched seeks) H1) as (sc' & H3 & Eh). rewrite Eh in E. cbn [s_rem s_off s_seeks] in E.
  destruct (Nat.leb 23 (length data)); [|discriminate]. destruct (bytes_eqb (firstn 23 data) magic); [|discriminate].
  destruct (Nat.leb 27 (length data)); [|discriminate].
  set (v := le_dec (firstn 4 (skipn 23 data))) in *. destruct (ver_supported v) eqn:Ev; [|discriminate].
  unfold parser_create in E. rewrite Ev in E. injection E as <-. split; [split; assumption|reflexivity].
Qed.

Lemma u4_ver : forall ver, (7000 <= ver <= 7999)%N -> u_ok 4 ver.
Proof. intros ver H. unfold u_ok. change (256 ^ N.of_nat 4)%N with 4294967296%N. lia. Qed.

Lemma opened_doc_at : forall ver ns f ext seekable p, opened_doc ver ns f ext seekable p ->
  u_ok (width ver) (27 + nodes_size ver ns) /\ foot_ok f /\ u_ok 4 ver /\
  at_cur ver (27 + nodes_size ver ns) (enc_footer ver f ++ ext) (c_init ns) p /\ r_seekable (p_rd p) = seekable /\ p_log p = [].
Proof.
  intros ver ns f ext seekable p [(V & N1 & N2 & N3 & N4) Hf HL (sched & seeks & h & Hs & Hk & Hh & Ho)].
  destruct (opened_calm _ _ _ _ _ _ Hs Hk Ho) as [Hc Hv].
  destruct (opened_init _ _ _ _ _ _ Ho) as (I1 & I2 & I3 & I4 & I5 & I6 & I7 & I8 & I9 & I10 & I11 & I12 & I13).
  assert (U4 : u_ok 4 ver) by (apply u4_ver; exact V).
  rewrite enc_doc_eq in *.
  assert (EV : p_ver p = ver).
  { rewrite Hv. change (skipn 23 (spec_magic ++ ?x)) with x. rewrite firstn_app, firstn_all2 by (rewrite le_enc_length; auto).
    rewrite le_enc_length. cbn [Nat.sub firstn]. rewrite app_nil_r. apply le_dec_enc. exact U4. }
  assert (ER : rem_of p = enc_nodes ver 27 ns ++ end_marker ver ++ enc_footer ver f ++ ext).
  { unfold rem_of. rewrite I11. rewrite app_assoc.
    change (dropN 27) with (dropN (A := byte) (23 + N.of_nat 4)). rewrite <- (le_enc_lenN 4 ver). change 23%N with (lenN spec_magic). rewrite <- lenN_app. apply dropN_app_len. }
  split; [exact N3|]. split; [exact Hf|]. split; [exact U4|]. split; [|auto].
  apply init_at; auto.
  - clear - N1 N2. induction N1; [constructor|]. inversion N2; subst. constructor; [split; assumption|auto].
  - lia.
  - unfold accepts. rewrite I5. exact Hh.
  - split; [exact Hc|]. unfold room. unfold rem_of in ER. rewrite ER, I8. rewrite app_assoc, lenN_app, lenN_app, le_enc_lenN in HL. change (lenN spec_magic) with 23%N in HL. lia.
Qed.
End WithEnv.

(** ** C22 and C26: what a client sees *)
Section Read.
Context {env : Env}.

Lemma ctrace_init : forall ver ns f, ctrace ver f (c_init ns) = doc_trace ver ns f.
Proof.
  intros ver ns f. unfold ctrace, doc_trace, c_init. cbn [c_done c_rest c_frames rest_trace app].
  unfold top_pos. change (nodes_size ver []) with 0%N. rewrite N.add_0_r. reflexivity.
Qed.

(** C22: whatever attributes a client loads between two events, with whatever loaders, as long
    as its calls succeed it sees the events of the document, in order, with their positions.
    [doc_trace] lists them from the document alone. *)
Theorem C22_events_of_document : forall ver ns f ext p, zlib_roundtrip env -> opened_doc ver ns f ext true p ->
  forall O (l : list (op O)) rs s', existsb is_skip l = false ->
  run_pos l p = (rs, s') -> Forall (fun r => is_ok (fst r)) rs ->
  events_in rs = map (fun ep => (fst ep, Some (snd ep))) (firstn (count_next l) (doc_trace ver ns f)).
Proof.
  intros ver ns f ext p HZ H O l rs s' Hl E Hok. destruct (opened_doc_at _ _ _ _ _ _ H) as (HV & HF & H4 & Hc & Hs & _).
  apply (ops_trace ver _ f ext HV HF H4 HZ O l _ p rs s'); auto. left. exists (c_init ns). rewrite ctrace_init. auto.
Qed.

(** Two clients that load attributes differently see the same events at the same positions. *)
Theorem C22_events_independent_of_loading : forall ver ns f ext p p', zlib_roundtrip env ->
  opened_doc ver ns f ext true p -> opened_doc ver ns f ext true p' ->
  forall O1 O2 (l1 : list (op O1)) (l2 : list (op O2)) rs1 rs2 s1 s2,
  existsb is_skip l1 = false -> existsb is_skip l2 = false -> count_next l1 = count_next l2 ->
  run_pos l1 p = (rs1, s1) -> run_pos l2 p' = (rs2, s2) ->
  Forall (fun r => is_ok (fst r)) rs1 -> Forall (fun r => is_ok (fst r)) rs2 ->
  events_in rs1 = events_in rs2.
Proof.
  intros ver ns f ext p p' HZ H H' O1 O2 l1 l2 rs1 rs2 s1 s2 K1 K2 EC E1 E2 F1 F2.
  rewrite (C22_events_of_document _ _ _ _ _ HZ H _ _ _ _ K1 E1 F1), (C22_events_of_document _ _ _ _ _ HZ H' _ _ _ _ K2 E2 F2), EC. reflexivity.
Qed.

(** C26, reading: any calls of a client using the direct loader — events, attribute loads,
    node skips, in any order — give exactly what the reference reader, which works on the
    document and not on bytes, says; and the warnings are the reference reader's. *)
Theorem C26_reader_agrees_with_document : forall ver ns f ext p, zlib_roundtrip env -> opened_doc ver ns f ext true p ->
  forall l os r', ref_run (footer_warnings ver ns f) (ref_start ver ns f) l os r' ->
  exists rs s', run_pos (map op_of l) p = (rs, s') /\ Forall2 sees rs os /\ map fst (p_log s') = rf_warn r'.
Proof.
  intros ver ns f ext p HZ H l os r' HR. destruct (opened_doc_at _ _ _ _ _ _ H) as (HV & HF & H4 & Hc & Hs & Hl).
  destruct (ref_steps ver _ f ext HV HF H4 HZ _ _ _ _ _ HR p) as (rs & s' & E & F & K).
  - split; [rewrite Hl; reflexivity|]. left. exists (c_init ns). cbn [ref_start rf_trace rf_atts rf_cur]. rewrite ctrace_init. auto 7.
  - exists rs, s'. split; [exact E|]. split; [exact F|]. apply K.
Qed.

(** The reference reader allows every order of calls without skips, up to the last event. *)
Theorem C26_calls_defined : forall fw l r,
  ~ In CSkip l -> (length (filter (fun c => match c with CNext => true | _ => false end) l) <= length (rf_trace r))%nat ->
  exists os r', ref_run fw r l os r'.
Proof.
  intros fw. induction l as [|c l IH]; intros r Hs Hn.
  - exists [], r. constructor.
  - assert (K : exists o p r1, ref_call fw c r = Some (o, p, r1) /\
      (length (filter (fun c => match c with CNext => true | _ => false end) l) <= length (rf_trace r1))%nat).
    { destruct c as [|b|].
      - cbn [filter length] in Hn. cbn [ref_call]. destruct (rf_trace r) as [|[e p] t]; [cbn in Hn; lia|].
        destruct e; (do 3 eexists; split; [reflexivity|]); cbn [rf_trace]; cbn [length] in Hn; lia.
      - cbn [filter] in Hn. cbn [ref_call]. destruct (rf_cur r) as [[|v vs]|]; (do 3 eexists; split; [reflexivity|]); exact Hn.
      - exfalso. apply Hs. left. reflexivity. }
    destruct K as (o & p & r1 & E & L). destruct (IH r1) as (os & r2 & H); [intros X; apply Hs; right; exact X|exact L|].
    exists ((o, p) :: os), r2. econstructor; eauto.
Qed.
End Read.

(** ** C12: skipping a node *)
Section Skip.
Context {env : Env}.

(** The cursor's movement. *)
Inductive cstep (ver : N) : cursor -> cursor -> Prop :=
| CS_same : forall c, cstep ver c c
| CS_start : forall c k c', next_of ver c = DStart k c' -> cstep ver c c'
| CS_end : forall c c', next_of ver c = DEnd c' -> cstep ver c c'
| CS_load : forall c ats, cstep ver c (c_load c ats)
| CS_skip : forall c f fs, c_frames c = f :: fs -> cstep ver c (c_skip c).

Lemma skip_needs_node : forall O s r s', run_op (@OSkip O) s = (Ok r, s') -> p_stack s <> [].
Proof.
  intros O s r s' E H. unfold run_op in E. rewrite bind_modify in E. unfold skip_current_node in E. rewrite bind_assoc, bind_gets in E.
  unfold current_node in E. cbn [p_stack set_attrs] in E. rewrite H in E. discriminate.
Qed.

Lemma op_cursor : forall ver lim f0 ext, u_ok (width ver) lim -> foot_ok f0 -> u_ok 4 ver -> zlib_roundtrip env ->
  forall O (o : op O) c s r s', at_cur ver lim (enc_footer ver f0 ++ ext) c s -> r_seekable (p_rd s) = true ->
  run_op o s = (Ok r, s') ->
  (exists c', at_cur ver lim (enc_footer ver f0 ++ ext) c' s' /\ r_seekable (p_rd s') = true /\ cstep ver c c') \/
  (p_health s' = Finished /\ p_stack s' = [] /\ p_stack s = [] /\ p_attrs s' = None).
Proof.
  intros ver lim f0 ext HV HF H4 HZ O o c s r s' H Hs E.
  assert (LD : forall b (ld : loader O), run_op (load_of b ld) s = (Ok r, s') ->
     exists c', at_cur ver lim (enc_footer ver f0 ++ ext) c' s' /\ r_seekable (p_rd s') = true /\ cstep ver c c').
  { intros b ld E'. assert (load_ready s) as Hl by (left; exact Hs).
    pose proof (run_load ver lim _ HZ O b ld c s r s' H Hl E') as K. destruct (c_attrs c) as [[|a ats]|].
    - destruct K as [_ ->]. exists c. split; [exact H|]. split; [exact Hs|apply CS_same].
    - destruct K as (_ & K & (_ & _ & K3)). exists (c_load c ats). split; [exact K|]. split; [congruence|apply CS_load].
    - destruct K as [_ ->]. exists c. split; [exact H|]. split; [exact Hs|apply CS_same]. }
  destruct o as [|l|l|].
  - destruct (next_cases ver lim f0 ext HV HF H4 O c s H (or_introl Hs)) as (e & p & t & s1 & E1 & E2 & E3 & E4 & K). rewrite E1 in E. injection E as _ <-.
    destruct K as [(c' & K1 & _ & K2)|(K1 & K2 & K3 & _ & K4)].
    + left. exists c'. split; [exact K1|]. split; [congruence|]. destruct K2 as [K2|(k & K2)]; [apply CS_end|eapply CS_start]; exact K2.
    + right. repeat split; auto. rewrite (sh_stack _ _ _ (ac_shape _ _ _ _ _ H)).
      pose proof (done_rest ver c) as DR. rewrite K4 in DR. destruct DR as [_ ->]. reflexivity.
  - left. apply (LD false l E).
  - left. apply (LD true l E).
  - left. assert (NS := skip_needs_node O s r s' E). rewrite (sh_stack _ _ _ (ac_shape _ _ _ _ _ H)) in NS.
    destruct (c_frames c) as [|f fs] eqn:Ef; [contradiction|].
    destruct (run_skip ver lim _ O c s f fs H Ef Hs) as (s1 & E1 & K & (_ & _ & K2)). rewrite E1 in E. injection E as _ <-.
    exists (c_skip c). split; [exact K|]. split; [congruence|]. eapply CS_skip. exact Ef.
Qed.

(** Inside the node that is innermost in [c0], or just after its end. *)
Definition inside (c0 c : cursor) : Prop :=
  c_done c = c_done c0 /\ c_rest c = c_rest c0 /\ exists xs f', c_frames c = xs ++ f' :: tl (c_frames c0).

Lemma inside_step : forall ver c0 c c', c_frames c0 <> [] -> inside c0 c -> cstep ver c c' -> inside c0 c' \/ c' = c_skip c0.
Proof.
  intros ver c0 c c' H0 (D & R & xs & f' & F) H. inversion H as [|? k ? Hn|? ? Hn|? ats|? f fs Ef]; subst.
  - left. split; [auto|]. split; eauto.
  - left. unfold next_of in Hn. rewrite F in Hn. destruct xs as [|x xs]; cbn [app] in Hn.
    + destruct (d_rest f') as [|k0 r0]; [discriminate|]. injection Hn as -> <-. split; [exact D|]. split; [exact R|]. cbn [c_frames].
      exists [nd_of k (c_pos ver c)], (d_take f' k r0). reflexivity.
    + destruct (d_rest x) as [|k0 r0]; [discriminate|]. injection Hn as -> <-. split; [exact D|]. split; [exact R|]. cbn [c_frames].
      exists (nd_of k (c_pos ver c) :: d_take x k r0 :: xs), f'. reflexivity.
  - unfold next_of in Hn. rewrite F in Hn. destruct xs as [|x xs]; cbn [app] in Hn.
    + destruct (d_rest f') as [|k0 r0]; [|discriminate]. injection Hn as <-. right. unfold c_skip. congruence.
    + destruct (d_rest x) as [|k0 r0]; [|discriminate]. injection Hn as <-. left. split; [exact D|]. split; [exact R|]. cbn [c_frames]. eauto.
  - left. split; [auto|]. split; [exact R|]. cbn [c_load c_frames]. eauto.
  - destruct xs as [|x xs]; rewrite F in Ef; injection Ef as -> <-.
    + right. unfold c_skip. rewrite F. cbn [app tl]. congruence.
    + left. unfold c_skip. split; [exact D|]. split; [exact R|]. rewrite F. cbn [c_frames app tl]. eauto.
Qed.

(** The parser fields, the position and the bytes left are determined by a cursor without
    pending attributes. *)
Lemma at_cur_peer : forall ver lim tail c s1 s2, at_cur ver lim tail c s1 -> at_cur ver lim tail c s2 -> c_attrs c = None ->
  r_seekable (p_rd s1) = true -> r_seekable (p_rd s2) = true -> peer (p_log s1) (p_log s2) s1 s2.
Proof.
  intros ver lim tail c s1 s2 [A1 A2 A3 A4] [B1 B2 B3 B4] Hn S1 S2. rewrite Hn in *.
  destruct A4 as (A4 & A5 & A6 & A7), B4 as (B4 & B5 & B6 & B7). destruct A2, B2.
  constructor; auto; try congruence; try apply A3; try apply B3.
  - constructor; try congruence. + unfold pos_of in *. congruence. + unfold rem_of in *. congruence.
  - exists []. auto.
Qed.

(** The calls [l], from [s], succeed and end by closing the node that is innermost open in
    [s]: until the last call the node stays open, after it it is closed. *)
Definition closes {O} (l : list (op O)) (s s' : pstate) : Prop :=
  (exists rs, run_ops l s = (rs, s') /\ Forall is_ok rs) /\
  (forall l1 l2, l = l1 ++ l2 -> l2 <> [] -> (depth s <= depth (snd (run_ops l1 s)))%N) /\
  (depth s' < depth s)%N.

(** The parser states a client reaches by calls that all succeed. *)
Definition reached {O} (p s : pstate) : Prop := exists (l : list (op O)) rs, run_ops l p = (rs, s) /\ Forall is_ok rs.

Lemma run_ops_cons : forall O (o : op O) l s rs s', run_ops (o :: l) s = (rs, s') -> Forall is_ok rs ->
  exists r s1 rs', run_op o s = (Ok r, s1) /\ run_ops l s1 = (rs', s') /\ rs = Ok r :: rs' /\ Forall is_ok rs'.
Proof.
  intros O o l s rs s' E H. cbn [run_ops] in E. destruct (run_op o s) as [[r|e|] s1] eqn:E1.
  - destruct (run_ops l s1) as [rs' s2] eqn:E2. injection E as <- <-. inversion H; subst. exists r, s1, rs'. auto.
  - destruct (run_ops l s1) as [rs' s2] eqn:E2. injection E as <- <-. inversion H; subst. contradiction.
  - injection E as <- <-. inversion H; subst. contradiction.
Qed.

Definition at_doc (ver lim : N) (tail : list byte) (s : pstate) : Prop :=
  (exists c, at_cur ver lim tail c s /\ r_seekable (p_rd s) = true) \/ (p_health s = Finished /\ p_stack s = [] /\ p_attrs s = None).

Lemma finished_op : forall O (o : op O) s r s', p_health s = Finished -> p_stack s = [] -> p_attrs s = None -> run_op o s = (Ok r, s') -> s' = s.
Proof.
  intros O o s r s' H1 H2 H3 E. destruct o as [|l|l|].
  - exfalso. unfold run_op in E. rewrite bind_modify in E. unfold next_event in E.
    unfold bind, gets, ensure_continuable in E. cbn [set_attrs p_health] in E. rewrite H1 in E. discriminate E.
  - unfold run_op in E. rewrite bind_gets, H3 in E. injection E as _ <-. reflexivity.
  - unfold run_op in E. rewrite bind_gets, H3 in E. injection E as _ <-. reflexivity.
  - exfalso. apply skip_needs_node in E. contradiction.
Qed.

Lemma reached_at : forall ver lim f0 ext, u_ok (width ver) lim -> foot_ok f0 -> u_ok 4 ver -> zlib_roundtrip env ->
  forall O (l : list (op O)) s rs s', at_doc ver lim (enc_footer ver f0 ++ ext) s -> run_ops l s = (rs, s') -> Forall is_ok rs ->
  at_doc ver lim (enc_footer ver f0 ++ ext) s'.
Proof.
  intros ver lim f0 ext HV HF H4 HZ O l. induction l as [|o l IH]; intros s rs s' H E Hok.
  - cbn in E. injection E as _ <-. exact H.
  - destruct (run_ops_cons _ _ _ _ _ _ E Hok) as (r & s1 & rs' & E1 & E2 & _ & Hok').
    apply (IH s1 rs' s'); auto. destruct H as [(c & Hc & Hs)|(F1 & F2 & F3)].
    + destruct (op_cursor ver lim f0 ext HV HF H4 HZ O o c s r s1 Hc Hs E1) as [(c' & K1 & K2 & _)|(K1 & K2 & _ & K3)]; [left; eauto|right; auto].
    + rewrite (finished_op _ _ _ _ _ F1 F2 F3 E1). right. auto.
Qed.

Lemma closes_at : forall ver lim f0 ext, u_ok (width ver) lim -> foot_ok f0 -> u_ok 4 ver -> zlib_roundtrip env ->
  forall O (l : list (op O)) c0 c s rs s', c_frames c0 <> [] -> inside c0 c ->
  at_cur ver lim (enc_footer ver f0 ++ ext) c s -> r_seekable (p_rd s) = true ->
  run_ops l s = (rs, s') -> Forall is_ok rs ->
  (forall l1 l2, l = l1 ++ l2 -> l2 <> [] -> (lenN (c_frames c0) <= depth (snd (run_ops l1 s)))%N) ->
  (depth s' < lenN (c_frames c0))%N ->
  at_cur ver lim (enc_footer ver f0 ++ ext) (c_skip c0) s' /\ r_seekable (p_rd s') = true.
Proof.
  intros ver lim f0 ext HV HF H4 HZ O l c0. induction l as [|o l IH]; intros c s rs s' Hf Hin H Hs E Hok Hop Hcl.
  - exfalso. cbn in E. injection E as _ <-. rewrite (c_depth _ _ _ (ac_shape _ _ _ _ _ H)) in Hcl. destruct Hin as (_ & _ & xs & f' & F).
    rewrite F in Hcl. destruct (c_frames c0) as [|g gs]; [contradiction|]. cbn [tl] in Hcl. rewrite lenN_app, !lenN_cons in Hcl. lia.
  - destruct (run_ops_cons _ _ _ _ _ _ E Hok) as (r & s1 & rs' & E1 & E2 & _ & Hok').
    destruct (op_cursor ver lim f0 ext HV HF H4 HZ O o c s r s1 H Hs E1) as [(c' & K1 & K2 & K3)|(_ & _ & K & _)].
    2:{ exfalso. destruct Hin as (_ & _ & xs & f' & F). rewrite (sh_stack _ _ _ (ac_shape _ _ _ _ _ H)), F in K. destruct xs; discriminate. }
    destruct (inside_step _ _ _ _ Hf Hin K3) as [I| ->].
    + apply (IH c' s1 rs' s'); auto. intros l1 l2 EL NL. specialize (Hop (o :: l1) l2). cbn [run_ops] in Hop. rewrite E1 in Hop.
      destruct (run_ops l1 s1) as [x y]. cbn [snd] in *. apply Hop; [rewrite EL; reflexivity|exact NL].
    + destruct l as [|o' l].
      * cbn in E2. injection E2 as _ <-. auto.
      * exfalso. specialize (Hop [o] (o' :: l) eq_refl ltac:(discriminate)). cbn [run_ops] in Hop. rewrite E1 in Hop. cbn [snd] in Hop.
        rewrite (c_depth _ _ _ (ac_shape _ _ _ _ _ K1)) in Hop. cbn [c_skip c_frames] in Hop.
        destruct (c_frames c0) as [|g gs]; [contradiction|]. cbn [tl] in Hop. rewrite lenN_cons in Hop. lia.
Qed.

(** C12: in a well-formed document, wherever a client is with a node open, skipping the node
    succeeds, and leaves the parser as any successful calls that read to the node's end do:
    same depth, same position, and the same results and warnings from all further calls. *)
Theorem C12_skip_is_reading_to_end : forall ver ns f ext p, zlib_roundtrip env -> opened_doc ver ns f ext true p ->
  forall O1 O2 s, @reached O1 p s -> (0 < depth s)%N ->
  exists s1, run_op (@OSkip O2) s = (Ok BSkipped, s1) /\ depth s1 = (depth s - 1)%N /\ p_log s1 = p_log s /\
  forall O3 (l : list (op O3)) s2, closes l s s2 ->
    depth s2 = depth s1 /\ position_of s2 = position_of s1 /\
    forall O4 (l' : list (op O4)), Forall regular l' ->
      fst (run_ops l' s2) = fst (run_ops l' s1) /\
      position_of (snd (run_ops l' s2)) = position_of (snd (run_ops l' s1)) /\
      exists w, p_log (snd (run_ops l' s2)) = w ++ p_log s2 /\ p_log (snd (run_ops l' s1)) = w ++ p_log s1.
Proof.
  intros ver ns f ext p HZ H O1 O2 s (l0 & rs0 & E0 & Hok0) Hd. destruct (opened_doc_at _ _ _ _ _ _ H) as (HV & HF & H4 & Hc & Hs & _).
  assert (HA : at_doc ver (27 + nodes_size ver ns) (enc_footer ver f ++ ext) s)
    by (eapply reached_at; eauto; left; eauto).
  destruct HA as [(c & Hcs & Hss)|(_ & F & _)]; [|unfold depth in Hd; rewrite F in Hd; cbn in Hd; lia].
  pose proof (c_depth _ _ _ (ac_shape _ _ _ _ _ Hcs)) as Dc. destruct (c_frames c) as [|g gs] eqn:Ef; [rewrite Dc in Hd; cbn in Hd; lia|].
  destruct (run_skip ver _ _ O2 c s g gs Hcs Ef Hss) as (s1 & E1 & K & (K1 & _ & K2)).
  exists s1. split; [exact E1|]. split; [|split; [exact K1|]].
  { rewrite (c_depth _ _ _ (ac_shape _ _ _ _ _ K)), Dc. cbn [c_skip c_frames]. rewrite Ef. cbn [tl]. rewrite lenN_cons. lia. }
  intros O3 l s2 ((rs & El & Hokl) & Hop & Hcl).
  assert (Q : at_cur ver (27 + nodes_size ver ns) (enc_footer ver f ++ ext) (c_skip c) s2 /\ r_seekable (p_rd s2) = true).
  { apply (closes_at ver _ f ext HV HF H4 HZ O3 l c c s rs s2); auto.
    - congruence.
    - split; [reflexivity|]. split; [reflexivity|]. exists [], g. rewrite Ef. reflexivity.
    - rewrite Ef, <- Dc. exact Hop.
    - rewrite Ef, <- Dc. exact Hcl. }
  destruct Q as [Q1 Q2]. assert (P : peer (p_log s2) (p_log s1) s2 s1) by (eapply at_cur_peer; eauto; congruence).
  destruct (peer_position _ _ _ _ P) as [P1 P2]. split; [exact P2|]. split; [exact P1|].
  intros O4 l' Hr. destruct (peer_runs _ _ O4 l' s2 s1 Hr P) as [R1 R2]. split; [exact R1|]. split; [apply (peer_position _ _ _ _ R2)|]. apply (e_log _ _ _ _ R2).
Qed.

(** Reading on does reach the node's end: enough calls of [next_event] close it. *)
Theorem C12_reading_closes : forall ver ns f ext p, zlib_roundtrip env -> opened_doc ver ns f ext true p ->
  forall O1 O2 s, @reached O1 p s -> (0 < depth s)%N ->
  exists n s2, closes (repeat (@ONext O2) n) s s2.
Proof.
  intros ver ns f ext p HZ H O1 O2 s (l0 & rs0 & E0 & Hok0) Hd. destruct (opened_doc_at _ _ _ _ _ _ H) as (HV & HF & H4 & Hc & Hs & _).
  assert (HA : at_doc ver (27 + nodes_size ver ns) (enc_footer ver f ++ ext) s)
    by (eapply reached_at; eauto; left; eauto).
  destruct HA as [(c0 & Hcs & Hss)|(_ & F & _)]; [|unfold depth in Hd; rewrite F in Hd; cbn in Hd; lia].
  assert (Hf0 : c_frames c0 <> []). { intros E. rewrite (c_depth _ _ _ (ac_shape _ _ _ _ _ Hcs)), E in Hd. cbn in Hd. lia. }
  assert (G : forall m c s, (length (ctrace ver f c) <= m)%nat -> inside c0 c ->
     at_cur ver (27 + nodes_size ver ns) (enc_footer ver f ++ ext) c s -> r_seekable (p_rd s) = true ->
     exists n s2, (exists rs, run_ops (repeat (@ONext O2) n) s = (rs, s2) /\ Forall is_ok rs) /\
       (forall l1 l2, repeat (@ONext O2) n = l1 ++ l2 -> l2 <> [] -> (lenN (c_frames c0) <= depth (snd (run_ops l1 s)))%N) /\
       (depth s2 < lenN (c_frames c0))%N).
  { clear s l0 rs0 E0 Hok0 Hd Hcs Hss. induction m as [|m IH]; intros c s Hm Hin H1 H2;
      destruct (next_cases ver _ f ext HV HF H4 O2 c s H1 (or_introl H2)) as (e & q & t & s1 & E1 & E2 & E3 & E4 & K); rewrite E2 in Hm; cbn [length] in Hm; [lia|].
    assert (DP : (lenN (c_frames c0) <= depth s)%N).
    { rewrite (c_depth _ _ _ (ac_shape _ _ _ _ _ H1)). destruct Hin as (_ & _ & xs & f' & F). rewrite F.
      destruct (c_frames c0) as [|g gs]; [contradiction|]. cbn [tl]. rewrite lenN_app, !lenN_cons. lia. }
    destruct K as [(c' & K1 & K2 & K3)|(_ & _ & _ & _ & K)].
    2:{ exfalso. pose proof (done_rest ver c) as DR. rewrite K in DR. destruct DR as [_ DR]. destruct Hin as (_ & _ & xs & f' & F). rewrite F in DR. destruct xs; discriminate. }
    assert (CS : cstep ver c c') by (destruct K3 as [K3|(k & K3)]; [apply CS_end|eapply CS_start]; exact K3).
    destruct (inside_step _ _ _ _ Hf0 Hin CS) as [I| ->].
    - destruct (IH c' s1) as (n & s2 & (rs & R1 & R2) & R3 & R4); auto; [subst t; lia|congruence|].
      exists (S n), s2. split; [|split; [|exact R4]].
      + exists (Ok (BEvent e) :: rs). cbn [repeat run_ops]. rewrite E1, R1. split; [reflexivity|]. constructor; [exact Logic.I|exact R2].
      + intros l1 l2 EL NL. destruct l1 as [|o l1]; [exact DP|]. cbn [repeat app] in EL. injection EL as <- EL. cbn [run_ops]. rewrite E1.
        specialize (R3 l1 l2 EL NL). destruct (run_ops l1 s1). exact R3.
    - exists 1%nat, s1. split; [|split].
      + exists [Ok (BEvent e)]. cbn [repeat run_ops]. rewrite E1. split; [reflexivity|]. constructor; [exact Logic.I|constructor].
      + intros l1 l2 EL NL. destruct l1 as [|o l1]; [exact DP|]. exfalso. cbn in EL. injection EL as _ EL. symmetry in EL. apply app_eq_nil in EL. destruct EL. contradiction.
      + rewrite (c_depth _ _ _ (ac_shape _ _ _ _ _ K1)). cbn [c_skip c_frames]. destruct (c_frames c0) as [|g gs]; [contradiction|]. cbn [tl]. rewrite lenN_cons. lia. }
  destruct (G (length (ctrace ver f c0)) c0 s (le_n _)) as (n & s2 & A & B & C); auto.
  { split; [reflexivity|]. split; [reflexivity|]. destruct (c_frames c0) as [|g gs]; [contradiction|]. exists [], g. reflexivity. }
  pose proof (c_depth _ _ _ (ac_shape _ _ _ _ _ Hcs)) as Dc. rewrite <- Dc in B, C. exists n, s2. split; [exact A|]. split; [exact B|exact C].
Qed.
End Skip.

(** ** The hypotheses are met: a nested document, read in small pieces with interruptions *)
Module Cases.
Local Existing Instance release.

Ltac ok := repeat match goal with
  | |- _ /\ _ => split
  | |- Forall _ _ => constructor
  | |- True => exact I
  | |- u_ok _ _ => vm_compute; reflexivity
  | |- i_ok _ _ => vm_compute; split; (reflexivity || discriminate)
  | |- node_ok _ => cbn [node_ok]
  | |- counts_ok _ _ => cbn [counts_ok]
  | |- attr_ok _ => unfold attr_ok, val_ok, attr_fits; cbn [at_val at_zip array_raw]
  | |- (_ < _)%N => vm_compute; reflexivity
  | |- (_ <= _)%N => vm_compute; discriminate
  | |- _ = _ => vm_compute; reflexivity
  | |- _ = _ -> _ => let H := fresh in intros H
  end.

Lemma sample_ok : forall ver, ver = 7400%N \/ ver = 7500%N -> doc_ok ver sample_nodes.
Proof. intros ver [-> | ->]; unfold doc_ok, sample_nodes; ok. Qed.
Lemma sample_foot_ok : forall ver, ver = 7400%N \/ ver = 7500%N -> foot_ok (sample_foot ver).
Proof. intros ver [-> | ->]; split; vm_compute; lia. Qed.

Definition choppy : list ioact := [AChunk 3; AIntr; AChunk 1; AIntr; AChunk 40; AChunk 2; AIntr].

Definition start (ver : N) : pstate :=
  match any_parser (mkStream (sample_doc ver ++ [x41; x42]) 0 choppy [None; None]) true with
  | Ok p => p | _ => mkP 0 Running [] None 0 (mkReader (mkStream [] 0 [] []) 0 true) None [] None end.

Lemma sample_opened : forall ver, ver = 7400%N \/ ver = 7500%N ->
  opened_doc ver sample_nodes (sample_foot ver) [x41; x42] true (start ver).
Proof.
  intros ver Hv. constructor.
  - apply sample_ok. exact Hv.
  - apply sample_foot_ok. exact Hv.
  - destruct Hv as [-> | ->]; vm_compute; reflexivity.
  - exists choppy, [None; None], None. split; [reflexivity|]. split; [reflexivity|]. split; [exact I|].
    exists (start ver). split; [|destruct Hv as [-> | ->]; vm_compute; reflexivity]. destruct Hv as [-> | ->]; vm_compute; reflexivity.
Qed.

(** C22: reading all attributes, or none, or one: the same five events. *)
Definition all_ops : list (op aval) := [ONext; ld; ld; ld; ONext; ONext; ONext; ld; ONext].
Definition no_ops : list (op aval) := [ONext; ONext; ONext; ONext; ONext].
Example C22_example : forall ver, ver = 7400%N \/ ver = 7500%N ->
  Forall (fun r => is_ok (fst r)) (fst (run_pos all_ops (start ver))) /\
  Forall (fun r => is_ok (fst r)) (fst (run_pos no_ops (start ver))) /\
  events_in (fst (run_pos all_ops (start ver))) = events_in (fst (run_pos no_ops (start ver))) /\
  map fst (events_in (fst (run_pos no_ops (start ver)))) = [EvStart s_a; EvStart s_b; EvEnd; EvStart []; EvEnd].
Proof. intros ver [-> | ->]; (split; [vm_compute; repeat constructor|]); (split; [vm_compute; repeat constructor|]); split; vm_compute; reflexivity. Qed.

(** C26: the reference reader on the sample, with loads, a skip and the end of the file. *)
Definition sample_calls : list call :=
  [CNext; CLoad false; CLoad true; CLoad false; CNext; CSkip; CNext; CSkip; CSkip; CNext; CLoad false; CNext; CNext; CLoad true].
Ltac ref_go := repeat (eapply RefCons; [vm_compute; reflexivity|]); apply RefNil.
Example C26_reader_example : exists os r',
  ref_run (footer_warnings 7400 sample_nodes (sample_foot 7400)) (ref_start 7400 sample_nodes (sample_foot 7400)) sample_calls os r' /\
  map fst os = [BEvent (EvStart s_a); BAttr (Some (VI32 (-5))); BAttr (Some (VString s_hi)); BAttr None; BEvent (EvStart s_b); BSkipped;
                BEvent (EvStart []); BSkipped; BSkipped; BEvent (EvStart s_c); BAttr (Some (VArrI32 [1; -2; 3]%Z)); BEvent EvEnd;
                BEvent (EvEndFbx (inr (footer_of 7400 (sample_foot 7400)))); BIgnored] /\
  rf_warn r' = [EmptyNodeName].
Proof. do 2 eexists. split; [unfold sample_calls; ref_go|]. split; vm_compute; reflexivity. Qed.

(** C12: in the first node, one attribute loaded; reading on closes it after five events. *)
Example C12_skip_example : exists s, @reached _ aval (start 7400) s /\ depth s = 1%N /\
  exists s2, closes (repeat (@ONext aval) 5) s s2.
Proof.
  exists (snd (run_ops [ONext; ld] (start 7400))). split; [|split].
  - exists [ONext; ld]. eexists. split; [vm_compute; reflexivity|]. repeat constructor.
  - vm_compute. reflexivity.
  - eexists. split; [|split].
    + eexists. split; [vm_compute; reflexivity|]. repeat constructor.
    + intros l1 l2 E N. do 5 (destruct l1 as [|? l1]; [vm_compute; discriminate|cbn in E; injection E as <- E]).
      symmetry in E. apply app_eq_nil in E. destruct E. contradiction.
    + vm_compute. reflexivity.
Qed.
End Cases.

Print Assumptions C22_events_of_document.
Print Assumptions C22_events_independent_of_loading.
Print Assumptions C26_reader_agrees_with_document.
Print Assumptions C26_calls_defined.
Print Assumptions C12_skip_is_reading_to_end.
Print Assumptions C12_reading_closes.
