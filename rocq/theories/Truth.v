(** What one call of [next_event] establishes about the bytes of the file. *)
Require Import Coq.Lists.List Coq.NArith.NArith Coq.ZArith.ZArith Coq.Bool.Bool Coq.micromega.Lia.
Require Import Coq.Init.Byte.
Require Import ZifyBool ZifyNat ZifyN.
Require Import Verif.Base Verif.BaseFacts Verif.Utf8 Verif.Types Verif.Io Verif.IoFacts Verif.Parser Verif.MonadFacts Verif.ParserSteps
  Verif.ParserShape Verif.SpecHist Verif.ParserHist Verif.ParserPos Verif.ReadFacts Verif.PropsSafety Verif.PropsEvents Verif.WarnPos
  Verif.Spec Verif.SpecLayout Verif.Layout Verif.LayoutIn Verif.SpecErr Verif.ErrFacts Verif.SpecTruth.
Import ListNotations.
Ltac Zify.zify_post_hook ::= Z.div_mod_to_equations.

Section WithEnv.
Context {env : Env}.
Context (data : list byte) (ver : N).

Lemma at_offset_drop : forall off bs rest, dropN off data = bs ++ rest -> bs <> [] -> at_offset data off bs.
Proof.
  intros off bs rest H Hb. exists (takeN off data), rest. split; [rewrite <- H; symmetry; apply takeN_dropN|].
  assert (L : (0 < lenN (dropN off data))%N) by (rewrite H, lenN_app; destruct bs; [congruence|unfold lenN; cbn [length]; lia]).
  rewrite lenN_dropN in L. rewrite takeN_firstn. unfold lenN in *. rewrite firstn_length. lia.
Qed.

(** ** What is known of an open node, and of the parser *)
Definition node_ok (n : started) : Prop :=
  exists claimed, header_at data ver (sn_start n) (sn_end n) (sn_attrs n) claimed (sn_name n) /\
    sn_attrs_end n = ((sn_start n + header_size ver + lenN (sn_name n) + claimed) mod 2 ^ 64)%N.
Record inv (s : pstate) : Prop := mkInv {
  iv_ver : p_ver s = ver;
  iv_seek : r_seekable (p_rd s) = true;
  iv_rem : rem s = dropN (rpos s) data;
  iv_top : topok s;
  iv_open : Forall node_ok (p_stack s)
}.
Definition off_of (s : pstate) : N := (rpos s + unread s)%N.

Lemma inv_fwd : forall s s', inv s -> fwd s s' -> topok s' -> Forall node_ok (p_stack s') -> inv s'.
Proof.
  intros s s' [A B C D E] (F1 & _ & _ & d & q & (M1 & M2 & M3 & M4) & L & S) T N.
  specialize (S B). subst q. split; try assumption; try congruence.
  unfold rem, rpos in *. rewrite M1, M3, C, dropN_dropN. f_equal.
Qed.
Lemma inv_quiet : forall s s', inv s -> quiet s s' -> inv s'.
Proof.
  intros s s' I Q. eapply inv_fwd; [exact I|apply quiet_fwd; exact Q|eapply keeps_quiet; [exact Q|apply I]|].
  destruct Q as (_ & _ & -> & _). apply I.
Qed.
Lemma inv_pop : forall s, inv s -> inv (pop s).
Proof.
  intros s [A B C D E]. split; try assumption.
  - apply keeps_pop. exact D.
  - cbn. destruct (p_stack s); [constructor|inversion E; assumption].
Qed.
Lemma inv_opened : forall sched seeks h p, opened data sched seeks true h p -> p_ver p = ver -> inv p.
Proof.
  intros sched seeks h p Ho V. pose proof (opened_topok _ _ _ _ _ _ Ho) as T. apply opened_init in Ho.
  destruct Ho as (_ & E & _ & _ & _ & _ & _ & R1 & R2 & _ & R4 & _). split; auto.
  - unfold rem, rpos. rewrite R4, R1. reflexivity.
  - rewrite E. constructor.
Qed.

(** ** Where the next header is *)
Lemma inv_resumes : forall s before, inv s -> position_of s = Some before ->
  resumes data ver before (off_of s) (option_map sn_end (current_node s)).
Proof.
  intros s before [A B C D E] P. pose proof (position_of_comp _ _ P) as Pc. apply position_of_path in P. destruct P as (P1 & _ & P3).
  unfold off_of, unread, current_node. unfold cp_of, path_of in *. destruct (p_stack s) as [|n st]; cbn [hd_error option_map map hd rev] in *.
  - rewrite N.add_0_r, <- P1. apply At_top. exact P3.
  - destruct (path_from_app (rev st) (p_top s - 1) n) as (i & Ep). rewrite Ep in P3. inversion_clear E as [|? ? N N']. destruct N as (cl & N1 & N2).
    rewrite N2. change (r_pos (p_rd s)) with (rpos s).
    replace (rpos s + _)%N with (N.max (byte_pos before) ((component_byte_pos before + header_size ver + lenN (sn_name n) + cl) mod 2 ^ 64))%N by (rewrite Pc, P1; lia).
    eapply In_node; [exact P3|]. rewrite Pc. exact N1.
Qed.

Lemma skip_unread_pos : forall s s', inv s -> skip_unread_attributes s = (Ok tt, s') -> rpos s' = off_of s.
Proof.
  intros s s' I H. unfold off_of, unread. unfold skip_unread_attributes in H. rewrite bind_gets in H. unfold rpos.
  destruct (current_node s) as [n|]; [|injection H as <-; lia]. unfold reader_pos in H. rewrite bind_gets in H.
  destruct (N.ltb_spec (r_pos (p_rd s)) (sn_attrs_end n)); cbn [when] in H; [|injection H as <-; lia].
  unfold m_skip_to, rdop, bind in H. destruct (skip_to (sn_attrs_end n) (p_rd s)) as [[[e|]|] r'] eqn:E; try discriminate. injection H as <-.
  apply skip_to_spec in E. destruct E as [_ E]. rewrite (iv_seek _ I) in E. destruct E as (_ & _ & E & _). exact E.
Qed.
Lemma skip_unread_err : forall s e s', skip_unread_attributes s = (Err e, s') -> exists c, e_error e = EIo (IoOther c).
Proof.
  intros s e s' H. unfold skip_unread_attributes in H. rewrite bind_gets in H.
  destruct (current_node s) as [n|]; [|discriminate]. unfold reader_pos in H. rewrite bind_gets in H.
  destruct (_ <? _)%N; cbn [when] in H; [|discriminate].
  unfold m_skip_to, rdop, bind in H. destruct (skip_to (sn_attrs_end n) (p_rd s)) as [[[x|]|] r'] eqn:E; try discriminate.
  apply skip_to_codes in E. destruct E as (cs & _ & c & -> & _). injection H as <- _. exists c. reflexivity.
Qed.
Lemma skip_unread_inv : forall s r s', inv s -> skip_unread_attributes s = (r, s') -> r <> Panic -> inv s'.
Proof. intros s r s' I H P. eapply inv_quiet; [exact I|]. apply (steps_elim _ _ _ _ _ _ skip_unread_quiet H P). Qed.

(** ** Reading what is there, or running into the end *)
Lemma header_there : forall s h s', inv s -> read_node_header s = (Ok h, s') ->
  inv s' /\ rem s = hdr_bytes ver h ++ rem s' /\ rpos s' = (rpos s + header_size ver)%N /\ at_offset data (rpos s) (hdr_bytes ver h) /\
  u_ok (width ver) (nh_end h) /\ u_ok (width ver) (nh_attrs h) /\ u_ok (width ver) (nh_alen h) /\
  p_stack s' = p_stack s /\ p_log s' = p_log s.
Proof.
  intros s h s' I H. pose proof (read_node_header_fits _ _ _ H) as F. pose proof (steps_elim _ _ _ _ _ _ read_node_header_quiet H ltac:(discriminate)) as Q.
  apply read_node_header_bytes in H. rewrite (iv_ver _ I) in *. destruct H as (A & B & C). rewrite hdr_len in B.
  split; [eapply inv_quiet; [exact I|apply Q]|]. split; [exact A|]. split; [exact B|]. split.
  { eapply at_offset_drop; [rewrite <- (iv_rem _ I); exact A|]. intros Z. assert (L := hdr_len ver h). rewrite Z in L. unfold header_size in L. cbn in L. lia. }
  destruct F as (F1 & F2 & F3). rewrite C. auto 8.
Qed.
Lemma read_exact_err : forall n s e s', read_exact n s = (Err e, s') ->
  exists x, e_error e = EIo x /\ (x = IoEof /\ (lenN (rem s) < N.of_nat n)%N \/ exists c, x = IoOther c).
Proof.
  intros n s e s' H. unfold read_exact, try_read, rdop, bind in H. destruct (rd_exact n (p_rd s)) as [[[x|got]|] r'] eqn:E; try discriminate.
  injection H as <- _. exists x. split; [reflexivity|]. pose proof (rd_exact_codes _ _ _ _ E) as (cs & _ & K). apply rd_exact_spec in E. destruct E as (d & _ & _ & _ & E).
  destruct x; try contradiction; [left; split; [reflexivity|apply E; reflexivity]|eauto].
Qed.
Lemma uint_err : forall n s e s', parse_uint n s = (Err e, s') ->
  exists x, e_error e = EIo x /\ (x = IoEof /\ (lenN (rem s) < N.of_nat n)%N \/ exists c, x = IoOther c).
Proof.
  intros n s e s' H. unfold parse_uint in H. mstep H as l s1 E1; try discriminate. injection H as ->. eapply read_exact_err. exact E1.
Qed.
Lemma header_err : forall s e s', read_node_header s = (Err e, s') ->
  exists x, e_error e = EIo x /\ (x = IoEof /\ (lenN (rem s) < header_size (p_ver s))%N \/ exists c, x = IoOther c).
Proof.
  intros s e s' H. unfold header_size. unfold read_node_header in H. rewrite bind_gets in H.
  change (hdr_width (p_ver s)) with (width (p_ver s)) in H. set (w := width (p_ver s)) in *. clearbody w.
  mstep H as eo s1 E1; try discriminate; [|injection H as ->; apply uint_err in E1; destruct E1 as (x & A & [[B C]|B]); exists x; (split; [exact A|]); [left; split; [exact B|lia]|auto]].
  apply parse_uint_bytes in E1. destruct E1 as (E1 & _).
  mstep H as na s2 E2; try discriminate; [|injection H as ->; apply uint_err in E2; destruct E2 as (x & A & [[B C]|B]); exists x; (split; [exact A|]); [left; split; [exact B|]|auto];
    unfold rem in *; rewrite E1, lenN_app, le_enc_lenN; lia].
  apply parse_uint_bytes in E2. destruct E2 as (E2 & _).
  mstep H as ba s3 E3; try discriminate; [|injection H as ->; apply uint_err in E3; destruct E3 as (x & A & [[B C]|B]); exists x; (split; [exact A|]); [left; split; [exact B|]|auto];
    unfold rem in *; rewrite E1, E2, !lenN_app, !le_enc_lenN; lia].
  apply parse_uint_bytes in E3. destruct E3 as (E3 & _).
  mstep H as nl s4 E4; try discriminate. injection H as ->. unfold parse_u8 in E4. mstep E4 as l s5 E5; try discriminate. injection E4 as ->.
  apply read_exact_err in E5. destruct E5 as (x & A & [[B C]|B]); exists x; (split; [exact A|]); [left; split; [exact B|]|auto].
  unfold rem in *. rewrite E1, E2, E3, !lenN_app, !le_enc_lenN. lia.
Qed.

(** ** Markers *)
Lemma marker_only : forall h, u_ok (width ver) (nh_end h) -> u_ok (width ver) (nh_attrs h) -> u_ok (width ver) (nh_alen h) ->
  hdr_bytes ver h = end_marker ver -> is_node_end h = true.
Proof.
  intros [a b c d] A B C H. cbn [nh_end nh_attrs nh_alen] in *.
  assert (E : hdr_bytes ver (mkNH a b c d) = hdr_bytes ver (mkNH 0 0 0 x00)) by (rewrite H; symmetry; apply header_marker; reflexivity).
  clear H. unfold hdr_bytes in E. cbn [nh_end nh_attrs nh_alen nh_nlen] in E. change (hdr_width ver) with (width ver) in E.
  apply app_inv_len in E; [|rewrite !le_enc_lenN; reflexivity]. destruct E as [E1 E].
  apply app_inv_len in E; [|rewrite !le_enc_lenN; reflexivity]. destruct E as [E2 E].
  apply app_inv_len in E; [|rewrite !le_enc_lenN; reflexivity]. destruct E as [E3 E]. injection E as ->.
  apply (f_equal le_dec) in E1, E2, E3. rewrite !le_dec_enc in E1, E2, E3; try assumption; try (unfold u_ok; apply N.neq_0_lt_0; apply N.pow_nonzero; lia).
  subst. reflexivity.
Qed.
Lemma start_not_marker : forall h name, lenN name = bN (nh_nlen h) -> is_node_end h = false ->
  u_ok (width ver) (nh_end h) -> u_ok (width ver) (nh_attrs h) -> u_ok (width ver) (nh_alen h) ->
  lay_header ver (nh_end h) (nh_attrs h) (nh_alen h) name <> end_marker ver.
Proof.
  intros h name L E A B C Z. rewrite <- hdr_lay in Z by exact L. assert (X := f_equal lenN Z). rewrite lenN_app, hdr_len, end_marker_len in X.
  destruct name as [|x name]; [|unfold lenN in X; cbn [length] in X; lia]. rewrite app_nil_r in Z. apply marker_only in Z; try assumption. congruence.
Qed.

(** ** Warnings *)
Lemma warn_refused : forall w p s e s', warn w p s = (Err e, s') -> refused e s'.
Proof.
  intros w p s e s' H. unfold warn in H. destruct (p_handler s) as [h|] eqn:Eh; [destruct (h _) as [e0|] eqn:E|]; try discriminate. injection H as <- <-.
  exists h, e0. cbn [p_handler p_log set_log]. split; [exact Eh|]. split; [discriminate|]. split; [exact E|reflexivity].
Qed.
Lemma warn_here_refused : forall b w s e s', when b (warn_here w) s = (Err e, s') -> refused e s'.
Proof.
  intros b w s e s' H. destruct b; cbn [when] in H; [|discriminate]. unfold warn_here in H. mstep H as p s1 E1; try discriminate.
  - eapply warn_refused. exact H.
  - apply position_ok in E1; [|discriminate]. destruct E1 as (_ & q & [=] & _).
Qed.
Lemma warn_here_ok : forall b w s s', when b (warn_here w) s = (Ok tt, s') -> quieta s s'.
Proof. intros b w s s' H. apply (steps_elim _ _ _ _ _ _ (when_warn_quiet b w) H). discriminate. Qed.

Lemma warn_here_rpos : forall b w s s', when b (warn_here w) s = (Ok tt, s') -> rpos s' = rpos s.
Proof.
  intros b w s s' H. destruct b; cbn [when] in H; [|injection H as <-; reflexivity]. unfold warn_here in H. mstep H as p s1 E1; try discriminate.
  apply position_ok in E1; [|discriminate]. destruct E1 as (-> & _). unfold warn in H.
  destruct (p_handler s) as [h|]; [destruct (h _)|]; try discriminate; injection H as <-; reflexivity.
Qed.

(** ** A node *)
Lemma name_ends : forall h s name, inv s -> rem s = name ++ dropN (lenN name) (rem s) -> lenN name = bN (nh_nlen h) ->
  forall s0, inv s0 -> rem s0 = hdr_bytes ver h ++ rem s ->
  u_ok (width ver) (nh_end h) -> u_ok (width ver) (nh_attrs h) -> u_ok (width ver) (nh_alen h) ->
  header_at data ver (rpos s0) (nh_end h) (nh_attrs h) (nh_alen h) name.
Proof.
  intros h s name I R L s0 I0 R0 A B C. split; [|repeat split; try assumption; rewrite L; apply bN_lt].
  rewrite <- hdr_lay by exact L. eapply at_offset_drop; [rewrite <- (iv_rem _ I0), R0, R, app_assoc; reflexivity|].
  intros Z. apply app_eq_nil in Z. destruct Z as [Z _]. assert (X := hdr_len ver h). rewrite Z in X. unfold header_size in X. cbn in X. lia.
Qed.

Lemma start_err : forall start h s e s' s0, inv s0 -> read_node_header s0 = (Ok h, s) -> is_node_end h = false -> start = rpos s0 ->
  start_node start h s = (Err e, s') ->
  refused e s' \/
  (exists name, e_error e = EData (InvalidNodeNameEncoding name) /\ header_at data ver start (nh_end h) (nh_attrs h) (nh_alen h) name /\
     lay_header ver (nh_end h) (nh_attrs h) (nh_alen h) name <> end_marker ver /\ utf8_valid name = false /\
     rpos s' = (start + header_size ver + lenN name)%N) \/
  (e_error e = EIo IoEof /\ cut_header data ver start) \/ (exists c, e_error e = EIo (IoOther c)).
Proof.
  intros start h s e s' s0 I0 Hh Ne -> H. destruct (header_there _ _ _ I0 Hh) as (I & R0 & P & At & A & B & C & _).
  unfold start_node in H. mstep H as [] s1 E1; try discriminate.
  2:{ left. injection H as <-. destruct (bN (nh_nlen h) =? 0)%N; cbn [when] in E1; [|discriminate].
      mstep E1 as pos s2 E2; try discriminate; [|apply position_ok in E2; [|discriminate]; destruct E2 as (_ & q & [=] & _)].
      unfold reader_pos in E1. rewrite bind_gets, bind_gets in E1. eapply warn_refused. exact E1. }
  assert (W : rem s1 = rem s /\ rpos s1 = rpos s).
  { destruct (bN (nh_nlen h) =? 0)%N; cbn [when] in E1; [|injection E1 as <-; auto].
    mstep E1 as pos s2 E2; try discriminate. apply position_ok in E2; [|discriminate]. destruct E2 as (-> & _).
    unfold reader_pos in E1. rewrite bind_gets, bind_gets in E1. unfold warn in E1.
    destruct (p_handler s) as [hd|]; [destruct (hd _)|]; try discriminate; injection E1 as <-; cbn; auto. }
  destruct W as [W1 W2]. mstep H as name s2 E2; try discriminate.
  - apply read_exact_bytes in E2. destruct E2 as (F1 & F2 & F3 & _). fold (rem s1) (rem s2) in F1. fold (rpos s1) (rpos s2) in F3.
    destruct (utf8_valid name) eqn:U.
    { unfold reader_pos in H. rewrite bind_gets in H. mstep H as aend s3 E3; try discriminate. exfalso. unfold add_u64 in E3.
      destruct (_ <? _)%N; [discriminate|]. destruct ovf_checks; discriminate. }
    injection H as <- <-. right. left. exists name. split; [reflexivity|].
    assert (L : lenN name = bN (nh_nlen h)) by (unfold lenN; rewrite F2; lia).
    split; [|split; [apply start_not_marker; assumption|split; [exact U|rewrite F3, W2, P, L; lia]]].
    eapply name_ends; eauto. rewrite <- W1, F1, dropN_app_len. reflexivity.
  - injection H as <-. apply read_exact_err in E2. destruct E2 as (x & X1 & [[-> X2]|[c ->]]); [|right; right; right; eauto].
    right. right. left. split; [exact X1|]. right. exists (nh_end h), (nh_attrs h), (nh_alen h), (bN (nh_nlen h)).
    split; [rewrite Nb_bN; exact At|]. split; [apply bN_lt|]. rewrite W1, (iv_rem _ I), lenN_dropN, P in X2.
    destruct At as (pre & post & Ed & Lp). assert (Z := f_equal lenN Ed). rewrite !lenN_app, hdr_len in Z. lia.
Qed.

Lemma start_ok : forall start h s k s' s0, inv s0 -> read_node_header s0 = (Ok h, s) -> is_node_end h = false -> start = rpos s0 ->
  start_node start h s = (Ok k, s') ->
  inv s' /\ exists n i, current_node s' = Some n /\ header_at data ver start (nh_end h) (nh_attrs h) (nh_alen h) (sn_name n) /\
     lay_header ver (nh_end h) (nh_attrs h) (nh_alen h) (sn_name n) <> end_marker ver /\ utf8_valid (sn_name n) = true /\
     rpos s' = (start + header_size ver + lenN (sn_name n))%N /\ sn_start n = start /\ path_of s' = path_of s0 ++ [(i, sn_name n)].
Proof.
  intros start h s k s' s0 I0 Hh Ne -> H. destruct (header_there _ _ _ I0 Hh) as (I & R0 & P & At & A & B & C & St & _).
  pose proof (start_node_shape _ _ _ _ _ H ltac:(discriminate)) as (_ & n & s1 & Q & Es & _). pose proof (start_node_fwd (rpos s0) h) as FW.
  apply steps_elim with (1 := FW) in H as F; [|discriminate].
  destruct (start_node_bytes _ _ _ _ _ H) as (name & N1 & N2 & N3 & N4 & N5 & N6 & N7 & N8 & _).
  assert (Hd : header_at data ver (rpos s0) (nh_end h) (nh_attrs h) (nh_alen h) name).
  { eapply name_ends with (s := s); eauto. rewrite N1, dropN_app_len. reflexivity. }
  assert (En : n = mkStarted (rpos s0) (nh_end h) (nh_attrs h) ((rpos s' + nh_alen h) mod pow2_64) name 0).
  { rewrite Es in N8. cbn [push set_stack p_stack] in N8. rewrite Es. congruence. }
  split.
  - eapply inv_fwd; [exact I|exact F| |].
    + rewrite Es. intros _. cbn. destruct Q as [(_ & _ & S1 & _ & S2 & _) _]. unfold count_child. destruct (p_stack s1) eqn:Z; cbn; [lia|]. rewrite S2. apply (iv_top _ I). rewrite <- S1. congruence.
    + rewrite N8. constructor.
      * exists (nh_alen h). cbn [sn_start sn_end sn_attrs sn_name sn_attrs_end]. split; [exact Hd|]. rewrite N4, P. f_equal.
      * pose proof (iv_open _ I) as O. unfold count_child. destruct (p_stack s) as [|m st] eqn:Z; cbn [p_stack set_stack set_top]; [rewrite Z; constructor|]. inversion_clear O. constructor; assumption.
  - exists n, (next_index s1). rewrite En. cbn [sn_name sn_start]. split; [unfold current_node; rewrite N8; reflexivity|].
    split; [exact Hd|]. split; [apply start_not_marker; assumption|]. split; [exact N3|]. split; [rewrite N4, P; lia|]. split; [reflexivity|].
    rewrite Es, push_path, En. cbn [sn_name]. f_equal. rewrite (quiet_path _ _ (proj1 Q)).
    pose proof (steps_elim _ _ _ _ _ _ read_node_header_quiet Hh ltac:(discriminate)) as Q0. apply quiet_path. apply Q0.
Qed.

(** ** One call *)
Lemma pop_path : forall s, path_of (pop s) = removelast (path_of s).
Proof.
  intros s. unfold path_of, pop. cbn [p_stack p_top set_stack]. destruct (p_stack s) as [|n st]; [reflexivity|]. cbn [tl rev].
  destruct (path_from_app (rev st) (p_top s - 1) n) as (i & ->). symmetry. apply removelast_last.
Qed.

Definition said (before : synpos) (s : pstate) (r : res perr ekind) (s' : pstate) : Prop :=
  match r with
  | Ok KStart => inv s' /\ exists n, current_node s' = Some n /\ forall after, position_of s' = Some after -> event_true data ver before after (EvStart (sn_name n))
  | Ok KEnd => inv s' /\ forall after, position_of s' = Some after -> event_true data ver before after EvEnd
  | Ok KEndFbx => inv s' /\ forall after f, (rpos s' <= byte_pos after)%N -> event_true data ver before after (EvEndFbx f)
  | Err e => inv s' /\ (refused e s' \/ forall after, position_of s' = Some after -> error_true data ver before after (e_error e))
  | Panic => True
  end.

Lemma impl_said : forall s r s' before, inv s -> position_of s = Some before -> impl_path s r s' -> said before s r s'.
Proof.
  intros s r s' before I Pb H. pose proof (inv_resumes _ _ I Pb) as Res.
  assert (SK : forall s1, skip_unread_attributes s = (Ok tt, s1) -> inv s1 /\ rpos s1 = off_of s /\ p_stack s1 = p_stack s /\ path_of s1 = node_path before).
  { intros s1 E. split; [eapply skip_unread_inv; [exact I|exact E|discriminate]|]. split; [apply skip_unread_pos; assumption|].
    pose proof (steps_elim _ _ _ _ _ _ skip_unread_quiet E ltac:(discriminate)) as Q. split; [apply Q|]. rewrite (quiet_path _ _ (proj1 Q)).
    apply position_of_path in Pb. symmetry. apply Pb. }
  assert (HB : forall s1, p_stack s1 = p_stack s -> rpos s1 = off_of s -> (forall n, current_node s1 = Some n -> (rpos s1 < sn_end n)%N) -> before_end (off_of s) (option_map sn_end (current_node s))).
  { intros s1 E1 E2 E3 ends. unfold current_node in *. rewrite E1, E2 in E3. destruct (hd_error (p_stack s)); [|discriminate]. intros [= <-]. apply E3. reflexivity. }
  assert (BP : forall x a, position_of x = Some a -> byte_pos a = rpos x) by (intros x a Z; apply position_of_path in Z; apply Z).
  destruct H.
  - split; [eapply skip_unread_inv; [exact I|eassumption|discriminate]|]. right. intros after _. apply skip_unread_err in H. destruct H as (c & ->).
    eexists _, _. split; [exact Res|exact Logic.I].
  - destruct (SK _ H) as (I1 & P1 & S1 & _). split; [exact I1|]. right. intros after Pa. eexists _, _. split; [exact Res|]. cbn [err_from e_error].
    unfold current_node in *. rewrite S1 in H0. rewrite H0. rewrite P1 in H1. split; [reflexivity|]. split; [exact H1|]. rewrite (BP _ _ Pa). exact P1.
  - destruct (SK _ H) as (I1 & P1 & S1 & T1). pose proof (warn_here_ok _ _ _ _ H2) as Q.
    assert (I2 : inv s2) by (eapply inv_quiet; [exact I1|apply Q]). split; [apply inv_pop; exact I2|]. intros after Pa.
    eexists _, _. split; [exact Res|]. rewrite (BP _ _ Pa). change (rpos (pop s2)) with (rpos s2).
    assert (R2 : rpos s2 = rpos s1) by (eapply warn_here_rpos; exact H2). rewrite R2.
    unfold current_node in *. rewrite S1 in H0. rewrite H0. cbn [option_map]. split; [congruence|]. split; [left; exact P1|].
    apply position_of_path in Pa. destruct Pa as (_ & _ & ->). rewrite pop_path, (quiet_path _ _ (proj1 Q)), T1. reflexivity.
  - destruct (SK _ H) as (I1 & _). split; [|left; eapply warn_here_refused; eassumption]. eapply inv_quiet; [exact I1|].
    apply (steps_elim _ _ _ _ _ _ (when_warn_quiet _ _) H2). discriminate.
  - destruct H as [H Hn]. destruct (SK _ H) as (I1 & P1 & S1 & _). split; [eapply inv_quiet; [exact I1|]; apply (steps_elim _ _ _ _ _ _ read_node_header_quiet H0); discriminate|].
    right. intros after _. eexists _, _. split; [exact Res|]. apply header_err in H0. destruct H0 as (x & -> & [[-> L]|[c ->]]); [|exact Logic.I].
    split; [eapply HB; eauto|]. left. rewrite (iv_ver _ I1), (iv_rem _ I1), lenN_dropN, P1 in L. lia.
  - destruct H as [H Hn]. destruct (SK _ H) as (I1 & P1 & S1 & _). destruct (header_there _ _ _ I1 H0) as (I2 & _ & P2 & At & _ & _ & _ & S2 & _).
    split; [apply inv_pop; exact I2|]. right. intros after Pa. eexists _, _. split; [exact Res|]. cbn [err_from e_error]. rewrite (BP _ _ Pa). change (rpos (pop s2)) with (rpos s2).
    unfold current_node in *. rewrite S2 in H2. rewrite <- S1, H2. cbn [option_map]. split; [reflexivity|]. split; [rewrite <- P1; apply Hn; exact H2|].
    rewrite P2, P1. split; [reflexivity|]. split; [rewrite <- P1, <- P2; congruence|]. split; [|reflexivity]. rewrite <- P1, <- (header_marker _ _ H1). exact At.
  - destruct H as [H Hn]. destruct (SK _ H) as (I1 & P1 & S1 & _). destruct (header_there _ _ _ I1 H0) as (I2 & _).
    split; [|left; eapply warn_here_refused; eassumption]. eapply inv_quiet; [apply inv_pop; exact I2|].
    apply (steps_elim _ _ _ _ _ _ (when_warn_quiet _ _) H4). discriminate.
  - destruct H as [H Hn]. destruct (SK _ H) as (I1 & P1 & S1 & T1). destruct (header_there _ _ _ I1 H0) as (I2 & _ & P2 & At & _ & _ & _ & S2 & _).
    pose proof (warn_here_ok _ _ _ _ H4) as Q.
    split; [eapply inv_quiet; [apply inv_pop; exact I2|apply Q]|]. intros after Pa. eexists _, _. split; [exact Res|]. rewrite (BP _ _ Pa).
    assert (R3 : rpos s3 = rpos (pop s2)) by (eapply warn_here_rpos; exact H4). rewrite R3. change (rpos (pop s2)) with (rpos s2).
    unfold current_node in *. rewrite S2 in H2. rewrite <- S1, H2. cbn [option_map]. split; [congruence|]. split.
    + right. rewrite P2, P1. split; [reflexivity|]. rewrite <- P1, <- (header_marker _ _ H1). exact At.
    + apply position_of_path in Pa. destruct Pa as (_ & _ & ->). rewrite (quiet_path _ _ (proj1 Q)), pop_path, <- T1. f_equal.
      pose proof (steps_elim _ _ _ _ _ _ read_node_header_quiet H0 ltac:(discriminate)) as Q0. apply quiet_path. apply Q0.
  - destruct H as [H Hn]. destruct (SK _ H) as (I1 & P1 & S1 & _). destruct (header_there _ _ _ I1 H0) as (I2 & _ & P2 & At & _ & _ & _ & S2 & _).
    split; [apply inv_pop; exact I2|]. intros after f L. change (rpos (pop s2)) with (rpos s2) in L. eexists _, _. split; [exact Res|].
    unfold current_node in *. rewrite S2 in H2. rewrite <- S1, H2. cbn [option_map]. split; [reflexivity|]. rewrite <- P1, <- (header_marker _ _ H1). split; [exact At|]. rewrite <- P2. exact L.
  - destruct H as [H Hn]. destruct (SK _ H) as (I1 & P1 & S1 & T1). destruct r as [k|e|]; [| |contradiction].
    + assert (k = KStart) as -> by (apply (start_node_shape _ _ _ _ _ H2 H3)).
      destruct (start_ok _ _ _ _ _ _ I1 H0 H1 eq_refl H2) as (I3 & n & i & C1 & C2 & C3 & C4 & C5 & C6 & C7). split; [exact I3|]. exists n. split; [exact C1|].
      intros after Pa. eexists _, _. split; [exact Res|]. split; [eapply HB; eauto|]. rewrite <- P1. exists i, (nh_end h), (nh_attrs h), (nh_alen h).
      split; [exact C2|]. split; [exact C3|]. split; [exact C4|]. rewrite (BP _ _ Pa). split; [exact C5|].
      split; [rewrite (position_of_comp _ _ Pa); unfold cp_of; unfold current_node in C1; destruct (p_stack s3); [discriminate|injection C1 as ->; exact C6]|].
      apply position_of_path in Pa. destruct Pa as (_ & _ & ->). rewrite C7, T1. reflexivity.
    + destruct (header_there _ _ _ I1 H0) as (I2 & _). pose proof (start_node_shape _ _ _ _ _ H2 H3) as Q. cbn in Q.
      split; [eapply inv_quiet; [exact I2|apply Q]|]. destruct (start_err _ _ _ _ _ _ I1 H0 H1 eq_refl H2) as [R|[(name & -> & C1 & C2 & C3 & C4)|[(-> & C)|(c & ->)]]]; [left; exact R|right|right|right].
      all: intros after Pa; eexists _, _; (split; [exact Res|]); cbn; try exact Logic.I.
      * split; [eapply HB; eauto|]. rewrite <- P1. exists (nh_end h), (nh_attrs h), (nh_alen h). rewrite (BP _ _ Pa). auto.
      * split; [eapply HB; eauto|]. rewrite <- P1. exact C.
Qed.
End WithEnv.
