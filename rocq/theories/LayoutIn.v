(** What a run of events up to the end of the document says about the bytes. *)
Require Import Coq.Lists.List Coq.NArith.NArith Coq.ZArith.ZArith Coq.Bool.Bool Coq.micromega.Lia.
Require Import Coq.Init.Byte.
Require Import ZifyBool ZifyNat ZifyN.
Require Import Verif.Base Verif.BaseFacts Verif.Utf8 Verif.Types Verif.Io Verif.IoFacts Verif.Parser Verif.MonadFacts Verif.ParserSteps
  Verif.ParserShape Verif.ParserHist Verif.ParserPos Verif.ReadFacts Verif.PropsSafety Verif.Spec Verif.SpecLayout Verif.Layout.
Import ListNotations.
Ltac Zify.zify_post_hook ::= Z.div_mod_to_equations.

Section WithEnv.
Context {env : Env}.
Context (ver : N) (data : list byte).
Let wraps := negb ovf_checks.

(** ** An open node: what is known of it so far *)
Record fr := mkFr { f_start : N; f_end : N; f_count : N; f_claimed : N;
                    f_name : list byte; f_region : list byte; f_kids : list skel }.
Definition f_in (f : fr) : N := (f_start f + header_size ver + lenN (f_name f) + lenN (f_region f))%N.
Definition fr_bytes (f : fr) : list byte :=
  lay_header ver (f_end f) (f_count f) (f_claimed f) (f_name f) ++ f_region f ++ lay_skels ver (f_in f) (f_kids f).
Definition fr_ok (f : fr) : Prop :=
  utf8_valid (f_name f) = true /\ (lenN (f_name f) < 256)%N /\
  u_ok (width ver) (f_end f) /\ u_ok (width ver) (f_count f) /\ u_ok (width ver) (f_claimed f) /\
  region_ok wraps (f_start f + header_size ver + lenN (f_name f)) (f_claimed f) (f_region f) /\
  skels_ok wraps ver (f_in f) (f_kids f).

Fixpoint open_bytes (fs : list fr) (tops : list skel) : list byte :=
  match fs with [] => lay_skels ver 27 tops | f :: fs => open_bytes fs tops ++ fr_bytes f end.
Fixpoint open_ok (fs : list fr) (tops : list skel) : Prop :=
  match fs with
  | [] => skels_ok wraps ver 27 tops
  | f :: fs => fr_ok f /\ f_start f = (27 + lenN (open_bytes fs tops))%N /\ open_ok fs tops
  end.
Fixpoint open_events (fs : list fr) (tops : list skel) : list event :=
  match fs with
  | [] => flat_map skel_events tops
  | f :: fs => open_events fs tops ++ EvStart (f_name f) :: flat_map skel_events (f_kids f)
  end.
Fixpoint open_warns (fs : list fr) (tops : list skel) : list warning :=
  match fs with
  | [] => flat_map skel_warnings tops
  | f :: fs => open_warns fs tops ++ start_warnings (f_name f) ++ flat_map skel_warnings (f_kids f)
  end.
Fixpoint stack_rel (extra : N) (st : list started) (fs : list fr) : Prop :=
  match st, fs with
  | [], [] => True
  | n :: st, f :: fs =>
      sn_end n = f_end f /\ sn_attrs n = f_count f /\ sn_name n = f_name f /\ (sn_attrs_end n <= f_in f)%N /\
      sn_kids n = (lenN (f_kids f) + extra)%N /\ stack_rel 1 st fs
  | _, _ => False
  end.

Definition add_kid (k : skel) (fs : list fr) : list fr :=
  match fs with
  | [] => []
  | f :: fs => mkFr (f_start f) (f_end f) (f_count f) (f_claimed f) (f_name f) (f_region f) (f_kids f ++ [k]) :: fs
  end.
Definition add_top (k : skel) (fs : list fr) (tops : list skel) : list skel :=
  match fs with [] => tops ++ [k] | _ => tops end.
Definition closed (f : fr) (marked : bool) : skel :=
  Skel (f_name f) (f_count f) (f_claimed f) (f_region f) (f_kids f) marked.

Lemma fr_bytes_len : forall f, (f_start f + lenN (fr_bytes f) = f_in f + skels_size ver (f_kids f))%N.
Proof. intros f. unfold fr_bytes, f_in. rewrite !lenN_app, lay_header_len, lay_skels_len. lia. Qed.

Lemma add_kid_bytes : forall k fs tops, open_ok fs tops ->
  open_bytes (add_kid k fs) (add_top k fs tops) = open_bytes fs tops ++ lay_skel ver (27 + lenN (open_bytes fs tops)) k.
Proof.
  intros k [|f fs] tops O; cbn [add_kid add_top open_bytes] in *.
  - rewrite lay_skels_app, lay_skels_len. cbn [lay_skels]. rewrite app_nil_r. reflexivity.
  - destruct O as (_ & S & _). unfold fr_bytes at 1. cbn [f_end f_count f_claimed f_name f_region f_kids f_start]. unfold f_in. cbn [f_name f_region f_start].
    fold (f_in f). rewrite lay_skels_app. cbn [lay_skels]. rewrite app_nil_r. unfold fr_bytes at 1. rewrite <- !app_assoc. do 4 f_equal.
    f_equal. rewrite lenN_app, N.add_assoc, <- S. symmetry. apply fr_bytes_len.
Qed.
Lemma add_kid_ok : forall k fs tops, open_ok fs tops -> skel_ok wraps ver (27 + lenN (open_bytes fs tops)) k ->
  open_ok (add_kid k fs) (add_top k fs tops).
Proof.
  intros k [|f fs] tops O K; cbn [add_kid add_top open_ok open_bytes] in *.
  - apply skels_ok_app. split; [exact O|]. cbn [skels_ok]. rewrite lay_skels_len in K. auto.
  - destruct O as (F & S & O). split; [|split; assumption]. unfold fr_ok, f_in in *. cbn [f_name f_region f_start f_end f_count f_claimed f_kids].
    destruct F as (A & B & C & D & E & R & G). repeat split; try assumption. apply skels_ok_app. split; [exact G|]. cbn [skels_ok]. split; [|exact I].
    rewrite lenN_app, N.add_assoc, <- S, fr_bytes_len in K. exact K.
Qed.
Lemma add_kid_events : forall k fs tops, open_events (add_kid k fs) (add_top k fs tops) = open_events fs tops ++ skel_events k.
Proof.
  intros k [|f fs] tops; cbn [add_kid add_top open_events f_name f_kids]; rewrite flat_map_app; cbn [flat_map]; rewrite app_nil_r; [reflexivity|].
  rewrite <- app_assoc. reflexivity.
Qed.
Lemma add_kid_warns : forall k fs tops, open_warns (add_kid k fs) (add_top k fs tops) = open_warns fs tops ++ skel_warnings k.
Proof.
  intros k [|f fs] tops; cbn [add_kid add_top open_warns f_name f_kids]; rewrite flat_map_app; cbn [flat_map]; rewrite app_nil_r; [reflexivity|].
  rewrite <- !app_assoc. reflexivity.
Qed.
Lemma stack_rel_add : forall k st fs, stack_rel 1 st fs -> stack_rel 0 st (add_kid k fs).
Proof.
  intros k [|n st] [|f fs]; cbn [stack_rel add_kid]; auto. unfold f_in. cbn [f_name f_region f_start f_end f_count f_claimed f_kids].
  intros (A & B & C & D & E & F). repeat split; try assumption. rewrite E, lenN_app. change (lenN [k]) with 1%N. lia.
Qed.

Lemma close_frame : forall f fs tops (marked : bool), open_ok (f :: fs) tops ->
  f_end f = (27 + lenN (open_bytes (f :: fs) tops) + (if marked then header_size ver else 0))%N ->
  let k := closed f marked in
  open_bytes (add_kid k fs) (add_top k fs tops) = open_bytes (f :: fs) tops ++ (if marked then end_marker ver else []) /\
  open_ok (add_kid k fs) (add_top k fs tops) /\
  open_events (add_kid k fs) (add_top k fs tops) = open_events (f :: fs) tops ++ [EvEnd] /\
  open_warns (add_kid k fs) (add_top k fs tops) = open_warns (f :: fs) tops ++ end_warnings (f_count f) (f_kids f) marked.
Proof.
  intros f fs tops marked O Ee k. pose proof O as O'. cbn [open_ok] in O'. destruct O' as ((A & B & C & D & E & R & G) & S & O').
  assert (Sz : (f_end f = f_start f + skel_size ver k)%N).
  { rewrite Ee. cbn [open_bytes]. rewrite lenN_app, N.add_assoc, <- S, fr_bytes_len. unfold k, closed. rewrite skel_size_eq. unfold f_in. lia. }
  split; [|split; [|split]].
  - rewrite add_kid_bytes by exact O'. cbn [open_bytes]. rewrite <- app_assoc. f_equal. rewrite <- S. unfold k at 1, closed. rewrite lay_skel_eq.
    fold (closed f marked). fold k. rewrite <- Sz. unfold fr_bytes, f_in. rewrite <- !app_assoc. reflexivity.
  - apply add_kid_ok; [exact O'|]. rewrite <- S. apply skel_ok_eq. fold (closed f marked). fold k. rewrite <- Sz. repeat split; assumption.
  - rewrite add_kid_events. cbn [open_events]. unfold k, closed. rewrite skel_events_eq, <- app_assoc. reflexivity.
  - rewrite add_kid_warns. cbn [open_warns]. unfold k, closed. rewrite skel_warnings_eq, <- !app_assoc. reflexivity.
Qed.

(** ** The invariant *)
Definition rem (s : pstate) : list byte := s_rem (r_stream (p_rd s)).
Definition at_frames (s : pstate) (fs : list fr) (tops : list skel) : Prop :=
  r_seekable (p_rd s) = true /\ p_ver s = ver /\
  data = spec_magic ++ le_enc 4 ver ++ open_bytes fs tops ++ rem s /\
  rpos s = (27 + lenN (open_bytes fs tops))%N /\
  stack_rel 0 (p_stack s) fs /\ open_ok fs tops /\
  match fs with [] => True | f :: _ => p_last s = Some KEnd <-> f_kids f <> [] end /\
  rev (map fst (p_log s)) = open_warns fs tops.
Definition settled (s : pstate) (evs : list event) : Prop :=
  forall s1, skip_unread_attributes s = (Ok tt, s1) ->
  rem s1 = [] \/ exists fs tops, at_frames s1 fs tops /\ evs = open_events fs tops.

Lemma skip_attrs : forall a s r s1, skip_unread_attributes (set_attrs a s) = (r, s1) ->
  exists s1', skip_unread_attributes s = (r, s1') /\ s1 = set_attrs a s1'.
Proof.
  intros a s r s1 H. unfold skip_unread_attributes in *. rewrite bind_gets in *. change (current_node (set_attrs a s)) with (current_node s) in H.
  destruct (current_node s) as [n|]; [|injection H as <- <-; exists s; split; reflexivity].
  unfold reader_pos in *. rewrite bind_gets in *. change (p_rd (set_attrs a s)) with (p_rd s) in H.
  destruct (_ <? _)%N; cbn [when] in *; [|injection H as <- <-; exists s; split; reflexivity].
  unfold m_skip_to, rdop, bind in *. change (p_rd (set_attrs a s)) with (p_rd s) in H.
  destruct (skip_to _ (p_rd s)) as [[[e|]|] r']; injection H as <- <-; eexists; (split; [reflexivity|reflexivity]).
Qed.
Lemma settled_attrs : forall a s evs, settled s evs -> settled (set_attrs a s) evs.
Proof.
  intros a s evs H s1 E. apply skip_attrs in E. destruct E as (s1' & E & ->). exact (H _ E).
Qed.

(** The attributes of the current node are passed over. *)
Lemma skip_seekable : forall s s', r_seekable (p_rd s) = true -> skip_unread_attributes s = (Ok tt, s') ->
  s' = set_rd (p_rd s') s /\ r_seekable (p_rd s') = true /\
  rem s' = dropN (unread s) (rem s) /\ rpos s' = (rpos s + unread s)%N.
Proof.
  intros s s' Sk H. pose proof H as H'. apply skip_unread_ok in H'. destruct H' as [A B]. split; [exact A|].
  unfold rem, rpos, unread in *. unfold skip_unread_attributes in H. rewrite bind_gets in H. destruct (current_node s) as [n|].
  - unfold reader_pos in H. rewrite bind_gets in H. destruct (N.ltb_spec (r_pos (p_rd s)) (sn_attrs_end n)) as [L|L]; cbn [when] in H.
    + unfold m_skip_to, rdop, bind in H. destruct (skip_to (sn_attrs_end n) (p_rd s)) as [[[e|]|] r'] eqn:E; try discriminate.
      injection H as <-. apply skip_to_spec in E. rewrite Sk in E. destruct E as (_ & _ & _ & E3 & E4). cbn. rewrite E4, E3. auto.
    + injection H as <-. split; [exact Sk|]. split; [exact B|]. lia.
  - injection H as <-. split; [exact Sk|]. split; [exact B|]. lia.
Qed.

Lemma dead_read : forall s h s', rem s = [] -> read_node_header s = (Ok h, s') -> False.
Proof.
  intros s h s' D H. apply read_node_header_bytes in H. destruct H as (H & _ & _). unfold rem in D. rewrite D in H.
  apply (f_equal lenN) in H. rewrite lenN_app, hdr_bytes_len in H. change (lenN (@nil byte)) with 0%N in H. lia.
Qed.
Lemma dead_settled : forall s evs, rem s = [] -> settled s evs.
Proof.
  intros s evs D s1 H. left. apply skip_unread_ok in H. destruct H as [_ H]. unfold rem in *. rewrite H, D. reflexivity.
Qed.

(** A node started: its header and its name. *)
Lemma start_node_bytes : forall start h s k s', start_node start h s = (Ok k, s') ->
  exists name, rem s = name ++ rem s' /\ lenN name = bN (nh_nlen h) /\ utf8_valid name = true /\
    rpos s' = (rpos s + lenN name)%N /\ r_seekable (p_rd s') = r_seekable (p_rd s) /\ p_ver s' = p_ver s /\
    (ovf_checks = true -> rpos s' + nh_alen h < pow2_64)%N /\
    p_stack s' = mkStarted start (nh_end h) (nh_attrs h) ((rpos s' + nh_alen h) mod pow2_64) name 0 :: p_stack (count_child s) /\
    map fst (p_log s') = rev (start_warnings name) ++ map fst (p_log s).
Proof.
  intros start h s k s' H. unfold start_node in H. mstep H as [] s1 E1; try discriminate.
  assert (W : p_rd s1 = p_rd s /\ p_ver s1 = p_ver s /\ p_stack s1 = p_stack s /\
              map fst (p_log s1) = (if (bN (nh_nlen h) =? 0)%N then [EmptyNodeName] else []) ++ map fst (p_log s)).
  { destruct (bN (nh_nlen h) =? 0)%N; cbn [when] in E1; [|injection E1 as <-; auto].
    mstep E1 as pos s2 E2; try discriminate. apply position_ok in E2; [|discriminate]. destruct E2 as (-> & _).
    unfold reader_pos in E1. rewrite bind_gets, bind_gets in E1. unfold warn in E1.
    destruct (p_handler s) as [hd|]; [destruct (hd _)|]; try discriminate; injection E1 as <-; cbn; auto. }
  destruct W as (W1 & W2 & W3 & W4).
  mstep H as name s2 E2; try discriminate. pose proof E2 as Q. apply read_exact_bytes in E2. destruct E2 as (A & B & C & D).
  assert (Q2 := steps_elim _ _ _ _ _ _ (read_exact_quiet _) Q ltac:(discriminate)).
  destruct (utf8_valid name) eqn:U; [|discriminate]. unfold reader_pos in H. rewrite bind_gets in H.
  mstep H as aend s3 E3; try discriminate. rewrite bind_modify, bind_modify in H. injection H as <- <-.
  assert (X : s3 = s2 /\ aend = ((r_pos (p_rd s2) + nh_alen h) mod pow2_64)%N /\ (ovf_checks = true -> r_pos (p_rd s2) + nh_alen h < pow2_64)%N).
  { unfold add_u64 in E3. destruct (N.ltb_spec (r_pos (p_rd s2) + nh_alen h) pow2_64) as [L|L].
    - injection E3 as <- <-. rewrite N.mod_small by exact L. auto.
    - destruct ovf_checks; [discriminate|]. injection E3 as <- <-. repeat split. discriminate. }
  destruct X as (-> & -> & X). exists name. unfold rem, rpos.
  assert (CR : forall s, p_rd (count_child s) = p_rd s) by (intros t; unfold count_child; destruct (p_stack t); reflexivity).
  assert (CV : forall s, p_ver (count_child s) = p_ver s) by (intros t; unfold count_child; destruct (p_stack t); reflexivity).
  assert (CL : forall s, p_log (count_child s) = p_log s) by (intros t; unfold count_child; destruct (p_stack t); reflexivity).
  unfold push. cbn [p_rd set_stack p_ver p_log p_stack]. rewrite CR, CV, CL.
  assert (L : lenN name = bN (nh_nlen h)) by (unfold lenN; rewrite B; lia).
  rewrite <- W1. repeat split; auto.
  - rewrite C, <- L. unfold lenN. lia.
  - destruct Q2 as [(_ & _ & _ & _ & _ & _ & _ & F) _]. destruct F as (? & ? & (_ & _ & _ & F) & _). exact F.
  - rewrite D. exact W2.
  - f_equal. rewrite D. unfold count_child. cbn [p_stack set_rd]. rewrite W3. destruct (p_stack s) as [|n t] eqn:Es; cbn [p_stack set_stack set_top set_rd]; congruence.
  - rewrite D. cbn [p_log set_rd]. rewrite W4. f_equal. rewrite <- L. unfold start_warnings. destruct name; [reflexivity|].
    destruct (N.eqb_spec (lenN (b :: name)) 0) as [Z|Z]; [unfold lenN in Z; cbn in Z; lia|reflexivity].
Qed.
Lemma parse_uint_fits : forall n s v s', parse_uint n s = (Ok v, s') -> u_ok n v.
Proof.
  intros n s v s' H. unfold parse_uint in H. mstep H as l s1 E; try discriminate. injection H as <- <-.
  apply read_exact_bytes in E. destruct E as (_ & E & _). pose proof (le_dec_bound l). unfold u_ok. unfold lenN in H. rewrite E in H. exact H.
Qed.
Lemma read_node_header_fits : forall s h s', read_node_header s = (Ok h, s') ->
  u_ok (width (p_ver s)) (nh_end h) /\ u_ok (width (p_ver s)) (nh_attrs h) /\ u_ok (width (p_ver s)) (nh_alen h).
Proof.
  intros s h s' H. unfold read_node_header in H. rewrite bind_gets in H.
  mstep H as eo s1 E1; try discriminate. mstep H as na s2 E2; try discriminate.
  mstep H as ba s3 E3; try discriminate. mstep H as nl s4 E4; try discriminate. injection H as <- <-.
  apply parse_uint_fits in E1. apply parse_uint_fits in E2. apply parse_uint_fits in E3. auto.
Qed.

Lemma hdr_lay : forall h name, lenN name = bN (nh_nlen h) ->
  hdr_bytes ver h ++ name = lay_header ver (nh_end h) (nh_attrs h) (nh_alen h) name.
Proof.
  intros h name L. unfold hdr_bytes, lay_header. rewrite L, Nb_bN, <- !app_assoc. reflexivity.
Qed.
Lemma hdr_len : forall h, lenN (hdr_bytes ver h) = header_size ver.
Proof. intros. rewrite hdr_bytes_len. unfold header_size, width, hdr_width. destruct (_ <? _)%N; reflexivity. Qed.

Lemma stack_rel_bump : forall s fs, stack_rel 0 (p_stack s) fs -> stack_rel 1 (p_stack (count_child s)) fs.
Proof.
  intros s fs H. unfold count_child. destruct (p_stack s) as [|n st] eqn:Es; destruct fs as [|f fs]; cbn [stack_rel] in H; try tauto.
  - cbn [p_stack set_top]. rewrite Es. exact I.
  - cbn [p_stack set_stack stack_rel sn_end sn_attrs sn_name sn_attrs_end sn_kids]. destruct H as (A & B & C & D & E & F). repeat split; try assumption. lia.
Qed.

Lemma start_settled : forall sA fs tops h sB k sC, at_frames sA fs tops -> read_node_header sA = (Ok h, sB) ->
  start_node (rpos sA) h sB = (Ok k, sC) ->
  exists name st, p_stack sC = st :: tl (p_stack sC) /\ sn_name st = name /\
  settled (set_last (Some KStart) sC) (open_events fs tops ++ [EvStart name]).
Proof.
  intros sA fs tops h sB k sC (I1 & I2 & I3 & I4 & I5 & I6 & I7 & I8) R S.
  pose proof (read_node_header_fits _ _ _ R) as (U1 & U2 & U3). rewrite I2 in U1, U2, U3.
  pose proof (steps_elim _ _ _ _ _ _ read_node_header_quiet R ltac:(discriminate)) as [(_ & _ & _ & _ & _ & _ & _ & (? & ? & (_ & _ & _ & QS) & _)) _].
  apply read_node_header_bytes in R. destruct R as (RB & RP & RE). rewrite I2 in RB, RP. rewrite hdr_len in RP.
  apply start_node_bytes in S. destruct S as (name & S1 & S2 & S3 & S4 & S5 & S6 & S7 & S8 & S9).
  exists name. eexists. split; [rewrite S8; reflexivity|]. split; [reflexivity|].
  intros s1 Sk.
  pose proof Sk as Sk'. apply skip_seekable in Sk'; [|cbn [set_last p_rd]; congruence].
  destruct Sk' as (K1 & K2 & K3 & K4). cbn [set_last] in K1.
  change (rem (set_last (Some KStart) sC)) with (rem sC) in K3. change (rpos (set_last (Some KStart) sC)) with (rpos sC) in K4.
  set (u := unread (set_last (Some KStart) sC)) in *.
  assert (Eu : u = ((rpos sC + nh_alen h) mod pow2_64 - rpos sC)%N).
  { unfold u, unread, current_node. cbn [p_stack set_last p_rd]. rewrite S8. cbn [hd_error sn_attrs_end]. reflexivity. }
  clearbody u. destruct (N.ltb_spec (lenN (rem sC)) u) as [L|L].
  { left. rewrite K3. apply dropN_all. lia. }
  right. set (f := mkFr (rpos sA) (nh_end h) (nh_attrs h) (nh_alen h) name (takeN u (rem sC)) []).
  assert (Lr : lenN (f_region f) = u) by (cbn [f f_region]; rewrite lenN_takeN; lia).
  assert (Fin : f_in f = rpos s1).
  { unfold f_in. rewrite Lr. cbn [f f_start f_name]. rewrite K4, S4. unfold rpos in *. rewrite RP. lia. }
  assert (FB : fr_bytes f = hdr_bytes ver h ++ name ++ takeN u (rem sC)).
  { unfold fr_bytes. cbn [f f_end f_count f_claimed f_name f_region f_kids lay_skels]. rewrite <- hdr_lay by exact S2. rewrite app_nil_r, <- app_assoc. reflexivity. }
  exists (f :: fs), tops. split.
  - unfold at_frames. split; [exact K2|]. split; [rewrite K1; cbn [p_ver set_rd]; change (p_ver sC = ver); rewrite S6, RE; exact I2|].
    assert (Ep : rpos s1 = (27 + lenN (open_bytes (f :: fs) tops))%N).
    { cbn [open_bytes]. rewrite FB, !lenN_app, lenN_takeN, hdr_len, N.min_l by lia. unfold rpos in *. lia. }
    split; [|split; [exact Ep|split; [|split; [|split]]]].
    + rewrite I3. do 2 f_equal. cbn [open_bytes]. rewrite FB, <- !app_assoc. f_equal. unfold rem in *. rewrite RB. f_equal.
      rewrite S1. f_equal. rewrite K3. symmetry. apply takeN_dropN.
    + rewrite K1. cbn [p_stack set_rd set_last]. rewrite S8. cbn [stack_rel sn_end sn_attrs sn_name sn_attrs_end sn_kids].
      cbn [f f_end f_count f_name f_kids]. fold f. repeat split; auto.
      * rewrite Fin, K4, Eu. lia.
      * apply stack_rel_bump. rewrite RE. exact I5.
    + cbn [open_ok]. split; [|split; [exact I4|exact I6]]. unfold fr_ok. cbn [f f_end f_count f_name f_kids f_claimed f_start f_region skels_ok].
      split; [exact S3|]. split; [rewrite S2; apply bN_lt|]. repeat split; try assumption.
      replace (rpos sA + header_size ver + lenN name)%N with (rpos sC) by (rewrite S4; unfold rpos in *; lia).
      unfold region_ok. rewrite lenN_takeN, N.min_l by lia.
      assert (P64 : pow2_64 = (2 ^ 64)%N) by reflexivity.
      assert (U3' : (nh_alen h < 2 ^ 64)%N) by (unfold u_ok in U3; pose proof (width_le ver); lia).
      destruct (N.ltb_spec (rpos sC + nh_alen h) pow2_64) as [W|W].
      * left. rewrite Eu, N.mod_small by exact W. lia.
      * right. assert (u = 0%N). { rewrite Eu. rewrite P64 in *. lia. }
        split; [unfold wraps; apply negb_true_iff, not_true_is_false; intros X; specialize (S7 X); lia|].
        split; [|rewrite P64 in W; exact W]. subst u. rewrite H. destruct (rem sC); reflexivity.
    + cbn [f f_kids]. rewrite K1. cbn [p_last set_rd set_last]. split; [discriminate|congruence].
    + rewrite K1. cbn [p_log set_rd set_last]. rewrite S9, RE. cbn [p_log set_rd]. rewrite rev_app_distr, rev_involutive, I8.
      cbn [open_warns f f_name f_kids flat_map]. rewrite app_nil_r. reflexivity.
  - cbn [open_events f f_name f_kids flat_map]. reflexivity.
Qed.

Lemma closed_settled : forall s f fs tops (marked : bool), open_ok (f :: fs) tops ->
  f_end f = (27 + lenN (open_bytes (f :: fs) tops) + (if marked then header_size ver else 0))%N ->
  r_seekable (p_rd s) = true -> p_ver s = ver -> p_last s = Some KEnd ->
  data = spec_magic ++ le_enc 4 ver ++ open_bytes (f :: fs) tops ++ (if marked then end_marker ver else []) ++ rem s ->
  rpos s = f_end f -> stack_rel 1 (p_stack s) fs ->
  rev (map fst (p_log s)) = open_warns (f :: fs) tops ++ end_warnings (f_count f) (f_kids f) marked ->
  settled s (open_events (f :: fs) tops ++ [EvEnd]).
Proof.
  intros s f fs tops marked O Ee Sk V La D P St W s1 K. right.
  destruct (close_frame f fs tops marked O Ee) as (C1 & C2 & C3 & C4). set (k := closed f marked) in *.
  exists (add_kid k fs), (add_top k fs tops). split; [|rewrite C3; reflexivity].
  assert (U : unread s = 0%N).
  { unfold unread, current_node. destruct (p_stack s) as [|n st]; [reflexivity|]. destruct fs as [|f' fs']; [destruct St|].
    cbn [hd_error stack_rel] in *. destruct St as (_ & _ & _ & A & _). cbn [open_ok] in O. destruct O as (_ & S1 & _ & S2 & _).
    cbn [open_bytes] in S1, Ee. rewrite !lenN_app in *. pose proof (fr_bytes_len f'). unfold rpos in P.
    assert (27 + (lenN (open_bytes fs' tops) + lenN (fr_bytes f')) <= r_pos (p_rd s))%N by (rewrite P, Ee; lia). lia. }
  apply skip_seekable in K; [|exact Sk]. destruct K as (K1 & K2 & K3 & K4). rewrite U in K3, K4. rewrite dropN_0 in K3.
  unfold at_frames. split; [exact K2|]. split; [rewrite K1; exact V|]. split; [|split; [|split; [|split; [|split]]]].
  - rewrite C1, K3, <- app_assoc. exact D.
  - rewrite C1, lenN_app, K4, P, Ee. destruct marked; [rewrite end_marker_len|change (lenN (@nil byte)) with 0%N]; lia.
  - rewrite K1. cbn [p_stack set_rd]. apply stack_rel_add. exact St.
  - exact C2.
  - destruct fs as [|f' fs']; cbn [add_kid]; [exact I|]. cbn [f_kids]. rewrite K1. cbn [p_last set_rd]. rewrite La.
    split; [|reflexivity]. intros _ X. apply app_eq_nil in X. destruct X; discriminate.
  - rewrite K1. cbn [p_log set_rd]. rewrite W, C4. reflexivity.
Qed.

Lemma missing_needed : forall s n f fs tops st, at_frames s (f :: fs) tops -> p_stack s = n :: st ->
  missing_marker s n = match f_kids f with [] => (f_count f =? 0)%N | _ => true end.
Proof.
  intros s n f fs tops st (_ & _ & _ & _ & St & _ & L & _) E. rewrite E in St. cbn [stack_rel] in St. destruct St as (_ & A & _).
  unfold missing_marker. rewrite A. destruct (f_kids f) as [|k ks].
  - destruct (p_last s) as [[| |]|]; try reflexivity. exfalso. apply L; reflexivity.
  - assert (p_last s = Some KEnd) as -> by (apply L; discriminate). reflexivity.
Qed.
Lemma extra_needed : forall s n f fs tops st, at_frames s (f :: fs) tops -> p_stack s = n :: st ->
  extra_marker n = negb (match f_kids f with [] => (f_count f =? 0)%N | _ => true end).
Proof.
  intros s n f fs tops st (_ & _ & _ & _ & St & _ & L & _) E. rewrite E in St. cbn [stack_rel] in St. destruct St as (_ & A & _ & _ & B & _).
  unfold extra_marker. rewrite A, B. destruct (f_kids f) as [|k ks].
  - change (lenN (@nil skel)) with 0%N. cbn. apply andb_true_r.
  - destruct (N.eqb_spec (lenN (k :: ks) + 0) 0) as [Z|Z]; [unfold lenN in Z; cbn in Z; lia|]. apply andb_false_r.
Qed.

Lemma when_warn_kept : forall b w s s', when b (warn_here w) s = (Ok tt, s') ->
  p_rd s' = p_rd s /\ p_ver s' = p_ver s /\ p_stack s' = p_stack s /\ p_last s' = p_last s /\
  rev (map fst (p_log s')) = rev (map fst (p_log s)) ++ (if b then [w] else []).
Proof.
  intros b w s s' H. pose proof (steps_elim _ _ _ _ _ _ (when_warn_quiet b w) H ltac:(discriminate)) as [(A & _ & B & C & _) _].
  apply warn_ok_log in H. destruct H as (E & F). rewrite E, rev_app_distr. repeat split; auto. f_equal. destruct b; reflexivity.
Qed.

Lemma header_marker : forall h, is_node_end h = true -> hdr_bytes ver h = end_marker ver.
Proof.
  intros h H. rewrite (hdr_bytes_end _ _ H). unfold end_marker, header_size, width, hdr_width. destruct (ver <? 7500)%N; reflexivity.
Qed.
Lemma frames_node : forall s fs tops n, at_frames s fs tops -> current_node s = Some n ->
  exists f fs' st, fs = f :: fs' /\ p_stack s = n :: st /\ stack_rel 1 st fs' /\ sn_end n = f_end f.
Proof.
  intros s fs tops n (_ & _ & _ & _ & St & _) E. unfold current_node in E. destruct (p_stack s) as [|m st]; [discriminate|].
  injection E as ->. destruct fs as [|f fs']; [destruct St|]. cbn [stack_rel] in St. exists f, fs', st. tauto.
Qed.

Lemma unmarked_settled : forall sA fs tops n sB, at_frames sA fs tops -> current_node sA = Some n -> sn_end n = rpos sA ->
  when (missing_marker sA n) (warn_here MissingNodeEndMarker) sA = (Ok tt, sB) ->
  settled (set_last (Some KEnd) (pop sB)) (open_events fs tops ++ [EvEnd]).
Proof.
  intros sA fs tops n sB A C E W. destruct (frames_node _ _ _ _ A C) as (f & fs' & st & -> & Es & St & En).
  rewrite (missing_needed _ _ _ _ _ _ A Es) in W. apply when_warn_kept in W. destruct W as (W1 & W2 & W3 & W4 & W5).
  destruct A as (I1 & I2 & I3 & I4 & I5 & I6 & I7 & I8).
  apply (closed_settled _ f fs' tops false); try assumption.
  - rewrite N.add_0_r, <- En, E. exact I4.
  - unfold pop. cbn [p_rd set_last set_stack]. rewrite W1. exact I1.
  - unfold pop. cbn [p_ver set_last set_stack]. rewrite W2. exact I2.
  - reflexivity.
  - unfold rem, pop. cbn [p_rd set_last set_stack]. rewrite W1. exact I3.
  - unfold rpos, pop. cbn [p_rd set_last set_stack]. rewrite W1, <- En, E. reflexivity.
  - unfold pop. cbn [p_stack set_last set_stack]. rewrite W3, Es. exact St.
  - unfold pop. cbn [p_log set_last set_stack]. rewrite W5, I8. f_equal.
Qed.
Lemma marked_settled : forall sA fs tops h sB n sC, at_frames sA fs tops -> read_node_header sA = (Ok h, sB) -> is_node_end h = true ->
  current_node sB = Some n -> sn_end n = rpos sB ->
  when (extra_marker n) (warn_here ExtraNodeEndMarker) (pop sB) = (Ok tt, sC) ->
  settled (set_last (Some KEnd) sC) (open_events fs tops ++ [EvEnd]).
Proof.
  intros sA fs tops h sB n sC A R Z C E W.
  pose proof (steps_elim _ _ _ _ _ _ read_node_header_quiet R ltac:(discriminate)) as [(_ & _ & _ & _ & _ & _ & _ & (? & ? & (_ & _ & _ & QS) & _)) _].
  apply read_node_header_bytes in R. destruct R as (RB & RP & RE).
  assert (C' : current_node sA = Some n) by (rewrite RE in C; exact C).
  destruct (frames_node _ _ _ _ A C') as (f & fs' & st & -> & Es & St & En).
  rewrite (extra_needed _ _ _ _ _ _ A Es) in W. apply when_warn_kept in W. destruct W as (W1 & W2 & W3 & W4 & W5).
  destruct A as (I1 & I2 & I3 & I4 & I5 & I6 & I7 & I8). rewrite I2 in RB, RP. rewrite hdr_len in RP. rewrite (header_marker _ Z) in RB.
  assert (W1' : p_rd sC = p_rd sB) by exact W1.
  apply (closed_settled _ f fs' tops true); try assumption.
  - rewrite <- En, E. unfold rpos in *. rewrite RP. lia.
  - cbn [p_rd set_last]. congruence.
  - cbn [p_ver set_last]. rewrite W2. unfold pop. cbn [p_ver set_stack]. rewrite RE. exact I2.
  - reflexivity.
  - unfold rem in *. cbn [p_rd set_last]. rewrite W1'. rewrite <- RB. exact I3.
  - unfold rpos. cbn [p_rd set_last]. rewrite W1', <- En, E. reflexivity.
  - cbn [p_stack set_last]. rewrite W3. unfold pop. cbn [p_stack set_stack]. rewrite RE. cbn [p_stack set_rd]. rewrite Es. exact St.
  - cbn [p_log set_last]. rewrite W5. unfold pop. cbn [p_log set_stack]. rewrite RE. cbn [p_log set_rd]. rewrite I8. f_equal.
    unfold end_warnings. destruct (match f_kids f with [] => _ | _ => _ end); reflexivity.
Qed.

(** ** One event *)
Lemma path_settled : forall s evs r s1, settled s evs -> impl_path s r s1 ->
  match r with
  | Ok KStart => exists name st, p_stack s1 = st :: tl (p_stack s1) /\ sn_name st = name /\
      settled (set_last (Some KStart) s1) (evs ++ [EvStart name])
  | Ok KEnd => settled (set_last (Some KEnd) s1) (evs ++ [EvEnd])
  | Ok KEndFbx => exists tops, data = lay_doc ver tops ++ rem s1 /\ skels_ok wraps ver 27 tops /\
      evs = flat_map skel_events tops /\ rev (map fst (p_log s1)) = flat_map skel_warnings tops /\ p_ver s1 = ver
  | _ => True
  end.
Proof.
  intros s evs r s1 H P. destruct P as [e s1 K|s1 n K C L|s1 n s2 K C E W|s1 n e s2 K C E W|s1 e s2 [K A] R|s1 h s2 c [K A] R Z C E
    |s1 h s2 c e s3 [K A] R Z C E W|s1 h s2 c s3 [K A] R Z C E W|s1 h s2 [K A] R Z C|s1 h s2 r s3 [K A] R Z S Np]; try exact I.
  - destruct (H _ K) as [D|(fs & tops & F & ->)]; [|eapply unmarked_settled; eassumption].
    apply dead_settled. apply when_warn_kept in W. destruct W as (W1 & _). unfold rem, pop in *. cbn [p_rd set_last set_stack]. rewrite W1. exact D.
  - destruct (H _ K) as [D|(fs & tops & F & ->)]; [exfalso; eapply dead_read; eassumption|]. eapply marked_settled; eassumption.
  - destruct (H _ K) as [D|(fs & tops & F & ->)]; [exfalso; eapply dead_read; eassumption|].
    destruct F as (I1 & I2 & I3 & I4 & I5 & I6 & I7 & I8). apply read_node_header_bytes in R. destruct R as (RB & RP & RE).
    rewrite I2 in RB. rewrite (header_marker _ Z) in RB.
    assert (E : p_stack s1 = []). { rewrite RE in C. unfold current_node in C. cbn [p_stack set_rd] in C. destruct (p_stack s1); [reflexivity|discriminate]. }
    rewrite E in I5. destruct fs as [|f fs]; [|destruct I5]. exists tops. unfold pop, rem in *. cbn [p_rd set_stack p_log p_ver].
    split; [|split; [exact I6|split; [reflexivity|split]]].
    + unfold lay_doc. rewrite I3. cbn [open_bytes]. rewrite RB, <- !app_assoc. reflexivity.
    + rewrite RE. exact I8.
    + rewrite RE. exact I2.
  - destruct (H _ K) as [D|(fs & tops & F & ->)]; [exfalso; eapply dead_read; eassumption|].
    destruct r as [k|e|]; try exact I. pose proof S as S'. apply start_node_shape in S'; [|discriminate]. destruct S' as (-> & _).
    eapply start_settled; eassumption.
Qed.

Lemma next_settled : forall O s evs r s', settled s evs -> run_op (@ONext O) s = (r, s') -> r <> Panic ->
  match r with
  | Ok (BEvent (EvEndFbx f)) => exists tops s1, data = lay_doc ver tops ++ rem s1 /\ skels_ok wraps ver 27 tops /\
      evs = flat_map skel_events tops /\ rev (map fst (p_log s1)) = flat_map skel_warnings tops /\ p_ver s1 = ver /\
      read_footer s1 = (match f with inr f => Ok f | inl e => Err e end, s')
  | Ok (BEvent ev) => settled s' (evs ++ [ev])
  | Ok _ => False
  | Err e => True
  | Panic => False
  end.
Proof.
  intros O s evs r s' H R Np. apply run_op_shape in R; [|exact Np]. destruct R as (r0 & s1 & R & X).
  destruct r0 as [ev|e|]; [|destruct X as [-> _]; exact I|destruct X].
  destruct X as (-> & X). apply next_event_shape in R; [|discriminate].
  destruct (p_health (set_attrs None s)); [|destruct R as [_ R]; discriminate|destruct R as [_ R]; discriminate].
  destruct R as (_ & r0 & s2 & P & R). apply (settled_attrs None) in H. pose proof (path_settled _ _ _ _ H P) as G.
  destruct ev as [name| |f].
  - destruct R as (-> & -> & n & rest & E1 & E2). destruct G as (name' & st & G1 & G2 & G3). destruct X as (m & rest' & _ & ->).
    apply settled_attrs. rewrite E1 in G1. injection G1 as <-. rewrite E2 in G2. subst name'. exact G3.
  - destruct R as (-> & ->). subst s'. exact G.
  - destruct R as (-> & R). destruct G as (tops & G1 & G2 & G3 & G4 & G5). exists tops. eexists. subst s'.
    split; [|split; [exact G2|split; [exact G3|split; [|split; [|exact R]]]]]; assumption.
Qed.

(** ** A whole run *)
Lemma stuck_run : forall O n s rs s', p_health s <> Running -> run_ops (repeat (@ONext O) n) s = (rs, s') ->
  Forall (fun r => exists e, r = Err e) rs.
Proof.
  intros O n. induction n as [|n IH]; intros s rs s' H R; cbn [repeat run_ops] in R.
  - injection R as <- _. constructor.
  - assert (E : exists e, run_op (@ONext O) s = (Err e, set_attrs None s)).
    { cbn [run_op]. rewrite bind_modify. unfold next_event, bind at 1. unfold gets at 1.
      unfold bind, ensure_continuable. cbn [set_attrs p_health]. destruct (p_health s); [congruence|eexists; reflexivity..]. }
    destruct E as (e & E). rewrite E in R. destruct (run_ops (repeat ONext n) (set_attrs None s)) as [rs1 s2] eqn:E2.
    injection R as <- <-. constructor; [eauto|]. eapply IH; [|exact E2]. exact H.
Qed.
Lemma next_err_stuck : forall O s e s', run_op (@ONext O) s = (Err e, s') -> p_health s' <> Running.
Proof.
  intros O s e s' R. apply run_op_shape in R; [|discriminate]. destruct R as (r0 & s1 & R & X).
  destruct r0 as [ev|e'|]; [destruct X; discriminate| |destruct X]. destruct X as (_ & ->).
  apply next_event_shape in R; [|discriminate]. change (p_health (set_attrs None s)) with (p_health s) in R. destruct (p_health s) eqn:Eh.
  - destruct R as (_ & r0 & s2 & _ & e0 & p & _ & _ & -> & _). discriminate.
  - destruct R as (-> & _). cbn [p_health set_attrs]. congruence.
  - destruct R as (-> & _). cbn [p_health set_attrs]. congruence.
Qed.
Lemma run_settled : forall O n s evs rs f s', settled s evs ->
  run_ops (repeat (@ONext O) n) s = (rs ++ [Ok (BEvent (EvEndFbx f))], s') ->
  exists tops s1, data = lay_doc ver tops ++ rem s1 /\ skels_ok wraps ver 27 tops /\
    map (fun e => Ok (BEvent e)) evs ++ rs = map (fun e => Ok (BEvent e)) (flat_map skel_events tops) /\
    rev (map fst (p_log s1)) = flat_map skel_warnings tops /\ p_ver s1 = ver /\
    read_footer s1 = (match f with inr f => Ok f | inl e => Err e end, s').
Proof.
  intros O n. induction n as [|n IH]; intros s evs rs f s' H R; cbn [repeat] in R.
  - cbn [run_ops] in R. injection R as R _. destruct rs; discriminate.
  - cbn [run_ops] in R. destruct (run_op ONext s) as [r s1] eqn:E1.
    assert (Np : r <> Panic). { intros ->. destruct rs as [|x [|y rs]]; discriminate. }
    pose proof (next_settled _ _ _ _ _ H E1 Np) as G.
    destruct (run_ops (repeat ONext n) s1) as [rs1 s2] eqn:E2.
    assert (R' : r :: rs1 = rs ++ [Ok (BEvent (EvEndFbx f))] /\ s2 = s').
    { destruct r; [|injection R as <- <-; auto|congruence]. injection R as <- <-. auto. }
    clear R. destruct R' as (R & ->).
    assert (Lst : p_health s1 <> Running -> rs1 = []).
    { intros X. pose proof (stuck_run _ _ _ _ _ X E2) as F. destruct rs1 as [|y rs1]; [reflexivity|]. exfalso.
      destruct (exists_last (l := y :: rs1)) as (l & x & Y); [discriminate|].
      rewrite Y in R, F. rewrite app_comm_cons in R. apply app_inj_tail in R. destruct R as [_ ->].
      apply Forall_app in F. destruct F as [_ F]. inversion F as [|c cs (e & Z) F']; subst. discriminate. }
    destruct r as [[ev|?| |]|e|]; try (destruct G; fail); try congruence.
    + destruct ev as [name| |g].
      * destruct rs as [|x rs]; [discriminate R|]. cbn [app] in R. injection R as <- ->.
        destruct (IH _ _ _ _ _ G E2) as (tops & t & A & B & C & D). exists tops, t. split; [exact A|]. split; [exact B|]. split; [|exact D].
        rewrite <- C, map_app, <- app_assoc. reflexivity.
      * destruct rs as [|x rs]; [discriminate R|]. cbn [app] in R. injection R as <- ->.
        destruct (IH _ _ _ _ _ G E2) as (tops & t & A & B & C & D). exists tops, t. split; [exact A|]. split; [exact B|]. split; [|exact D].
        rewrite <- C, map_app, <- app_assoc. reflexivity.
      * pose proof (fbx_end_ended _ _ _ _ E1) as (En & _). rewrite Lst in R by congruence.
        assert (rs = [] /\ g = f) as (-> & ->). { destruct rs as [|x rs]; [injection R as ->; auto|destruct rs; discriminate]. }
        assert (s' = s1) as ->.
        { rewrite Lst in E2 by congruence. destruct n; cbn [repeat run_ops] in E2; [injection E2 as <-; reflexivity|].
          destruct (run_op (@ONext O) s1) as [[v|e|] t]; try (destruct (run_ops (repeat ONext n) t)); discriminate. }
        rewrite app_nil_r. destruct G as (tops & t & A & B & C & D). exists tops, t. split; [exact A|]. split; [exact B|]. split; [|exact D]. rewrite C. reflexivity.
    + exfalso. destruct (p_health s1) eqn:Eh.
      * exact (next_err_stuck _ _ _ _ E1 Eh).
      * rewrite Lst in R by congruence. destruct rs as [|x rs]; [discriminate|destruct rs; discriminate].
      * rewrite Lst in R by congruence. destruct rs as [|x rs]; [discriminate|destruct rs; discriminate].
Qed.
End WithEnv.
