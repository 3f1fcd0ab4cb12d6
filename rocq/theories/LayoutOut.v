(** Reading a layout: the events and the warnings. *)
Require Import Coq.Lists.List Coq.NArith.NArith Coq.ZArith.ZArith Coq.Bool.Bool Coq.micromega.Lia.
Require Import Coq.Init.Byte.
Require Import ZifyBool ZifyNat ZifyN.
Require Import Verif.Base Verif.BaseFacts Verif.Utf8 Verif.Types Verif.Io Verif.IoFacts Verif.Parser Verif.MonadFacts Verif.ParserSteps
  Verif.ParserShape Verif.ParserHist Verif.ParserPos Verif.ParserSafe Verif.ReadFacts Verif.Moves Verif.AttrLoad Verif.DocCursor Verif.FooterFacts Verif.PropsSafety Verif.Spec Verif.SpecLayout Verif.Layout.
Import ListNotations.
Ltac Zify.zify_post_hook ::= Z.div_mod_to_equations.
Open Scope monad_scope.

Section WithEnv.
Context {env : Env} (ver : N).
Let wraps := negb ovf_checks.

(** A parser that goes on: it runs, accepts warnings, reads without failing, and the index of
    the current top-level node is known. *)
Record fit (s : pstate) : Prop := mkFit {
  fi_ver : p_ver s = ver;
  fi_health : p_health s = Running;
  fi_acc : accepts s;
  fi_ready : ready s;
  fi_seek : r_seekable (p_rd s) = true;
  fi_last : p_last s <> Some KEndFbx;
  fi_top : p_stack s <> [] -> p_top s <> 0%N
}.

(** After the unread attributes of the current node, it is at offset [off], before [bs]. *)
Definition at_off (s : pstate) (off : N) (bs : list byte) : Prop :=
  fit s /\ exists junk, rem_of s = junk ++ bs /\ unread s = lenN junk /\ (pos_of s + lenN junk = off)%N.

(** The warnings so far. *)
Definition warned (s : pstate) : list warning := rev (map fst (p_log s)).

Lemma skip_here : forall s off bs, at_off s off bs ->
  exists s1 d, skip_unread_attributes (set_attrs None s) = (Ok tt, s1) /\ moved d (set_attrs None s) s1 /\
    rem_of s1 = bs /\ pos_of s1 = off /\ ready s1.
Proof.
  intros s off bs [F (junk & R & U & P)]. unfold skip_unread_attributes. rewrite bind_gets.
  change (current_node (set_attrs None s)) with (current_node s). unfold unread in U. destruct (current_node s) as [n|] eqn:Ec.
  - unfold reader_pos. rewrite bind_gets. fold (pos_of (set_attrs None s)). change (pos_of (set_attrs None s)) with (pos_of s).
    fold (pos_of s) in U. destruct (N.ltb_spec (pos_of s) (sn_attrs_end n)) as [L|L]; cbn [when].
    + destruct (skip_mv (sn_attrs_end n) (set_attrs None s)) as (s1 & E1 & M1).
      * exact (fi_ready _ F).
      * exact (fi_seek _ F).
      * change (pos_of (set_attrs None s)) with (pos_of s). lia.
      * change (pos_of (set_attrs None s)) with (pos_of s). change (rem_of (set_attrs None s)) with (rem_of s). rewrite R, lenN_app. lia.
      * exists s1, (lenN junk). change (pos_of (set_attrs None s)) with (pos_of s) in M1. rewrite U in M1. split; [exact E1|]. split; [exact M1|].
        split; [|split].
        -- eapply moved_app; [exact M1|exact R|reflexivity].
        -- rewrite (moved_pos _ _ _ M1). exact P.
        -- eapply moved_ready; [exact M1| |exact (fi_ready _ F)]. change (rem_of (set_attrs None s)) with (rem_of s). rewrite R, lenN_app. lia.
    + exists (set_attrs None s), 0%N. split; [reflexivity|]. split; [apply moved_0|].
      assert (junk = []) as -> by (destruct junk; [reflexivity|unfold lenN in U; cbn [length] in U; lia]).
      split; [exact R|]. split; [change (lenN (@nil byte)) with 0%N in P; rewrite N.add_0_r in P; exact P|exact (fi_ready _ F)].
  - exists (set_attrs None s), 0%N. split; [reflexivity|]. split; [apply moved_0|].
    assert (junk = []) as -> by (destruct junk; [reflexivity|unfold lenN in U; cbn [length] in U; lia]).
    split; [exact R|]. split; [change (lenN (@nil byte)) with 0%N in P; rewrite N.add_0_r in P; exact P|exact (fi_ready _ F)].
Qed.

Lemma fit_position : forall s, (p_stack s <> [] -> p_top s <> 0%N) -> exists p, position_of s = Some p.
Proof.
  intros s H. unfold position_of. destruct (p_stack s); [eexists; reflexivity|].
  destruct (N.eqb_spec (p_top s) 0); [exfalso; apply H; [discriminate|assumption]|eexists; reflexivity].
Qed.
Lemma accepts_ext : forall s s', p_handler s' = p_handler s -> accepts s -> accepts s'.
Proof. intros s s' E H. unfold accepts in *. rewrite E. exact H. Qed.

(** The header and the name. *)
Lemma enter_node : forall s off e c a name region bs, ready s -> p_ver s = ver -> accepts s -> (p_stack s <> [] -> p_top s <> 0%N) ->
  rem_of s = lay_header ver e c a name ++ region ++ bs -> pos_of s = off ->
  utf8_valid name = true -> (lenN name < 256)%N -> u_ok (width ver) e -> u_ok (width ver) c -> u_ok (width ver) a -> e <> 0%N ->
  region_ok wraps (off + header_size ver + lenN name) a region -> (off + header_size ver + lenN name + lenN region < pow2_64)%N ->
  exists h s1 s2 aend, read_node_header s = (Ok h, s1) /\ is_node_end h = false /\ start_node off h s1 = (Ok KStart, s2) /\
    p_stack s2 = mkStarted off e c aend name 0 :: p_stack (count_child s) /\
    (aend <= off + header_size ver + lenN name + lenN region)%N /\ (aend - pos_of s2 = lenN region)%N /\
    rem_of s2 = region ++ bs /\ (pos_of s2 = off + header_size ver + lenN name)%N /\ ready s2 /\
    p_ver s2 = ver /\ p_health s2 = p_health s /\ p_handler s2 = p_handler s /\ r_seekable (p_rd s2) = r_seekable (p_rd s) /\
    p_top s2 = p_top (count_child s) /\ warned s2 = warned s ++ start_warnings name.
Proof.
  intros s off e c a name region bs Hrd Hv Ha Ht R P U1 U2 Ue Uc Ua En Ro L.
  unfold lay_header in R. rewrite <- !app_assoc in R.
  destruct (read_header_mv ver s e c a _ _ Hrd Hv R Ue Uc Ua) as (s1 & E1 & M1 & R1 & Y1).
  exists (mkNH e c a (Nb (lenN name))), s1.
  destruct (moved_fields _ _ _ M1) as (F1 & F2 & F3 & F4 & F5 & F6 & (F7 & F8 & F9)).
  assert (Wn : bN (Nb (lenN name)) = lenN name) by (rewrite bN_Nb; apply N.mod_small; assumption).
  assert (P1 : pos_of s1 = (off + header_size ver)%N) by (rewrite (moved_pos _ _ _ M1), P; reflexivity).
  assert (W : exists s2, when (bN (Nb (lenN name)) =? 0)%N
     (let* pos := position in let* bp := reader_pos in
      let* idx := gets (fun s0 => match p_stack s0 with [] => p_top s0 | n :: _ => sn_kids n end) in
      warn EmptyNodeName (mkPos bp off (node_path pos ++ [(idx, [])]) (attribute_index pos))) s1 = (Ok tt, s2) /\
     map fst (p_log s2) = start_warnings name ++ map fst (p_log s1) /\ exists l, s2 = set_log l s1).
  { rewrite Wn. destruct name as [|b name].
    - cbn [lenN length N.of_nat N.eqb when]. destruct (fit_position s1) as (p & Ep); [rewrite F3, F5; exact Ht|].
      unfold bind at 1, position. rewrite Ep. unfold reader_pos. rewrite !bind_gets.
      rewrite warn_accepts by (eapply accepts_ext; [exact F8|exact Ha]). eexists. split; [reflexivity|]. split; [reflexivity|]. eexists; reflexivity.
    - rewrite lenN_cons. replace (1 + lenN name =? 0)%N with false by (symmetry; apply N.eqb_neq; lia).
      exists s1. split; [reflexivity|]. split; [reflexivity|]. exists (p_log s1). destruct s1; reflexivity. }
  destruct W as (s2 & E2 & L2 & (l & T2)).
  assert (Y2 : ready s2) by (rewrite T2; exact Y1).
  assert (R2 : rem_of s2 = name ++ region ++ bs) by (rewrite T2; exact R1).
  destruct (read_exact_mv (N.to_nat (bN (Nb (lenN name)))) s2 _ _ Y2 R2) as (s3 & E3 & M3 & R3 & Y3). { rewrite Wn. unfold lenN. lia. }
  destruct (moved_fields _ _ _ M3) as (G1 & G2 & G3 & G4 & G5 & G6 & (G7 & G8 & G9)).
  rewrite T2 in G1, G2, G3, G4, G5, G6, G7, G8, G9. cbn in G1, G2, G3, G4, G5, G6, G7, G8, G9.
  assert (P3 : pos_of s3 = (off + header_size ver + lenN name)%N).
  { rewrite (moved_pos _ _ _ M3), T2. change (pos_of (set_log l s1)) with (pos_of s1). rewrite P1, Wn. lia. }
  set (aend := ((pos_of s3 + a) mod pow2_64)%N).
  assert (P64 : pow2_64 = (2 ^ 64)%N) by reflexivity.
  assert (Ua' : (a < pow2_64)%N) by (unfold u_ok in Ua; pose proof (width_le ver); lia).
  assert (A : add_u64 (pos_of s3) a s3 = (Ok aend, s3)).
  { unfold add_u64. destruct (N.ltb_spec (pos_of s3 + a) pow2_64) as [X|X].
    - unfold aend. rewrite N.mod_small by exact X. reflexivity.
    - destruct Ro as [-> | (Wr & _ & _)]; [rewrite P3 in X; lia|]. unfold wraps in Wr. apply negb_true_iff in Wr. rewrite Wr. reflexivity. }
  assert (Ae : (aend - pos_of s3 = lenN region)%N /\ (aend <= pos_of s3 + lenN region)%N).
  { unfold aend. destruct Ro as [-> | (Wr & Rg & X)].
    - rewrite N.mod_small by (rewrite P3; exact L). lia.
    - subst region. change (lenN (@nil byte)) with 0%N. rewrite <- P3 in X. rewrite <- P64 in X.
      replace (pos_of s3 + a)%N with (pos_of s3 + a - pow2_64 + 1 * pow2_64)%N by lia.
      rewrite N.mod_add by discriminate. rewrite N.mod_small by (change (lenN (@nil byte)) with 0%N in L; lia). lia. }
  destruct Ae as (A1 & A2).
  exists (push (mkStarted off e c aend name 0) (count_child s3)), aend. split; [exact E1|]. split.
  { unfold is_node_end. cbn [nh_end nh_attrs nh_alen nh_nlen]. replace (e =? 0)%N with false by (symmetry; apply N.eqb_neq; exact En). reflexivity. }
  split.
  { unfold start_node. cbn [nh_end nh_attrs nh_alen nh_nlen]. rewrite (bind_ok _ _ _ _ _ _ _ E2), (bind_ok _ _ _ _ _ _ _ E3), U1.
    unfold reader_pos. rewrite bind_gets. fold (pos_of s3). rewrite (bind_ok _ _ _ _ _ _ _ A), !bind_modify. reflexivity. }
  assert (RD : p_rd (push (mkStarted off e c aend name 0) (count_child s3)) = p_rd s3) by (unfold push, count_child; destruct (p_stack s3); reflexivity).
  assert (OT : forall x, p_ver (push x (count_child s3)) = p_ver s3 /\ p_health (push x (count_child s3)) = p_health s3 /\
     p_handler (push x (count_child s3)) = p_handler s3 /\ p_log (push x (count_child s3)) = p_log s3).
  { intros x. unfold push, count_child. destruct (p_stack s3); repeat split. }
  destruct (OT (mkStarted off e c aend name 0)) as (O1 & O2 & O3 & O4).
  unfold ready, calm, room, rem_of, pos_of, warned in *. rewrite RD, O1, O2, O3, O4.
  split.
  { unfold push. cbn [p_stack set_stack]. f_equal. unfold count_child. rewrite G3, F3. destruct (p_stack s) as [|n st] eqn:Es; cbn [p_stack set_top set_stack]; [congruence|reflexivity]. }
  split; [rewrite <- P3; exact A2|]. split; [exact A1|]. split; [exact R3|]. split; [exact P3|]. split; [exact Y3|].
  repeat (split; [congruence|]). split.
  { unfold push. cbn [p_top set_stack]. unfold count_child. rewrite G3, F3. destruct (p_stack s) as [|n st] eqn:Es; cbn [p_top set_top set_stack]; congruence. }
  rewrite G7. replace l with (p_log s2) by (rewrite T2; reflexivity). rewrite L2, F7, rev_app_distr. f_equal. destruct name; reflexivity.
Qed.

Lemma impl_intro : forall s off, p_health s = Running -> p_last s <> Some KEndFbx -> forall s1,
  skip_unread_attributes s = (Ok tt, s1) -> pos_of s1 = off ->
  next_event_impl s = (
    let after_header :=
      let* h := read_node_header in
      let* hend := reader_pos in
      if is_node_end h then
        let* top := gets current_node in
        modify pop ;;
        match top with
        | Some c =>
            if negb (sn_end c =? hend)%N
            then throw (err_from (EData (NodeLengthMismatch (sn_end c) (Some hend))))
            else
              when (negb (sn_attrs c =? 0)%N && (sn_kids c =? 0)%N)
                   (let* p := position in warn ExtraNodeEndMarker p) ;;
              ret KEnd
        | None => ret KEndFbx
        end
      else start_node off h in
    match current_node s1 with
    | Some n =>
        if (sn_end n <? off)%N
        then throw (err_from (EData (NodeLengthMismatch (sn_end n) None)))
        else if (sn_end n =? off)%N
        then
          let* last := gets p_last in
          when (match last with Some KEnd => true | _ => false end || (sn_attrs n =? 0)%N)
               (let* p := position in warn MissingNodeEndMarker p) ;;
          modify pop ;;
          ret KEnd
        else after_header
    | None => after_header
    end) s1.
Proof.
  intros s off Hh Hl s1 E P. unfold next_event_impl. rewrite bind_gets, Hh. cbn [assert_]. rewrite bind_ret, bind_gets.
  replace (match p_last s with Some KEndFbx => false | _ => true end) with true by (destruct (p_last s) as [[]|]; congruence).
  cbn [assert_]. rewrite bind_ret, (bind_ok _ _ _ _ _ _ _ E). unfold reader_pos at 1. rewrite bind_gets. fold (pos_of s1). rewrite P, bind_gets. reflexivity.
Qed.

(** ** One event *)
Lemma start_step : forall O s off e c a name region bs, at_off s off (lay_header ver e c a name ++ region ++ bs) ->
  utf8_valid name = true -> (lenN name < 256)%N -> u_ok (width ver) e -> u_ok (width ver) c -> u_ok (width ver) a -> e <> 0%N ->
  region_ok wraps (off + header_size ver + lenN name) a region -> (off + header_size ver + lenN name + lenN region < pow2_64)%N ->
  match p_stack s with [] => True | n :: _ => (off < sn_end n)%N end ->
  exists s' aend, run_op (@ONext O) s = (Ok (BEvent (EvStart name)), s') /\
    at_off s' (off + header_size ver + lenN name + lenN region) bs /\
    p_stack s' = mkStarted off e c aend name 0 :: p_stack (count_child s) /\
    (aend <= off + header_size ver + lenN name + lenN region)%N /\
    p_last s' = Some KStart /\ p_top s' = p_top (count_child s) /\ warned s' = warned s ++ start_warnings name.
Proof.
  intros O s off e c a name region bs H U1 U2 Ue Uc Ua En Ro L Pa. pose proof H as [F _].
  destruct (skip_here _ _ _ H) as (s1 & d & E1 & M1 & R1 & P1 & Y1).
  destruct (moved_fields _ _ _ M1) as (F1 & F2 & F3 & F4 & F5 & F6 & (F7 & F8 & F9)).
  cbn [set_attrs p_ver p_health p_stack p_last p_top p_attrs p_log p_handler p_rd] in F1, F2, F3, F4, F5, F6, F7, F8, F9.
  destruct (enter_node s1 off e c a name region bs Y1) as (h & s2 & s3 & aend & B1 & B2 & B3 & B4 & B5 & B6 & B7 & B8 & B9 & B10 & B11 & B12 & B13 & B14 & B15); auto.
  { rewrite F1. apply F. } { eapply accepts_ext; [exact F8|apply F]. } { rewrite F3, F5. apply F. }
  assert (CS : p_stack (count_child s1) = p_stack (count_child s) /\ p_top (count_child s1) = p_top (count_child s)).
  { unfold count_child. rewrite F3. destruct (p_stack s) as [|n st] eqn:Es; cbn [p_stack p_top set_top set_stack]; split; congruence. }
  destruct CS as (CS1 & CS2).
  assert (EI : next_event_impl (set_attrs None s) = (Ok KStart, s3)).
  { rewrite (impl_intro _ off (fi_health _ F : p_health (set_attrs None s) = Running) (fi_last _ F : p_last (set_attrs None s) <> _) _ E1 P1). cbv zeta.
    assert (AH : forall (k : node_header -> M ekind), (let* h := read_node_header in k h) s1 = k h s2).
    { intros k. rewrite (bind_ok _ _ _ _ _ _ _ B1). reflexivity. }
    unfold current_node at 1. rewrite F3. destruct (p_stack s) as [|n st]; cbn [hd_error].
    - rewrite AH. unfold reader_pos. rewrite bind_gets, B2. exact B3.
    - replace (sn_end n <? off)%N with false by (symmetry; apply N.ltb_ge; lia).
      replace (sn_end n =? off)%N with false by (symmetry; apply N.eqb_neq; lia).
      rewrite AH. unfold reader_pos. rewrite bind_gets, B2. exact B3. }
  assert (HN : next_event (set_attrs None s) = (Ok (EvStart name), set_last (Some KStart) s3)).
  { rewrite (next_wrap _ _ _ (fi_health _ F : p_health (set_attrs None s) = Running) EI). cbn [ekind_eqb when]. rewrite bind_ret, bind_modify, bind_gets.
    assert (D : depth (set_last (Some KStart) s3) = (depth (set_attrs None s) + 1)%N).
    { unfold depth. cbn [p_stack set_last set_attrs]. rewrite B4, CS1, lenN_cons. unfold count_child. destruct (p_stack s) as [|n st] eqn:Es; cbn [p_stack set_top set_stack].
      - rewrite Es. reflexivity.
      - rewrite !lenN_cons. lia. }
    rewrite D, wsub_1. cbn [N.eqb Pos.eqb assert_]. rewrite bind_ret, bind_gets. cbn [p_last set_last ekind_eqb assert_]. rewrite bind_ret, bind_gets.
    unfold current_node. cbn [p_stack set_last]. rewrite B4. reflexivity. }
  eexists. exists aend. split.
  { unfold run_op. rewrite bind_modify, (bind_ok _ _ _ _ _ _ _ HN). unfold from_parser. rewrite bind_assoc, bind_gets.
    unfold current_node. cbn [p_stack set_last]. rewrite B4. cbn [hd_error]. unfold reader_pos. rewrite bind_assoc, bind_gets, bind_modify. reflexivity. }
  split.
  { split.
    - constructor; cbn [set_attrs set_last p_ver p_health p_stack p_last p_top p_rd p_handler].
      + exact B10.
      + rewrite B11, F2. apply F.
      + apply (accepts_ext s1); [exact B12|]. eapply accepts_ext; [exact F8|apply F].
      + exact B9.
      + rewrite B13, F9. apply F.
      + discriminate.
      + intros _. rewrite B14, CS2. unfold count_child. destruct (p_stack s) as [|n st] eqn:Es; cbn [p_top set_top set_stack].
        * lia.
        * apply (fi_top _ F). rewrite Es. discriminate.
    - exists region. split; [exact B7|]. split.
      + unfold unread, current_node. cbn [set_attrs set_last p_stack p_rd]. rewrite B4. exact B6.
      + match goal with |- (pos_of ?x + _ = _)%N => change (pos_of x) with (pos_of s3) end. rewrite B8. reflexivity. }
  cbn [set_attrs set_last p_stack p_last p_top]. rewrite B4, CS1, B14, CS2. split; [reflexivity|]. split; [exact B5|]. split; [reflexivity|]. split; [reflexivity|].
  unfold warned in *. cbn [set_attrs set_last p_log]. rewrite B15, F7. reflexivity.
Qed.

Lemma warn_when : forall b w s, accepts s -> (p_stack s <> [] -> p_top s <> 0%N) ->
  exists l, when b (let* p := position in warn w p) s = (Ok tt, set_log l s) /\ rev (map fst l) = warned s ++ (if b then [w] else []).
Proof.
  intros b w s Ha Ht. destruct b; cbn [when].
  - destruct (fit_position s Ht) as (p & Ep). unfold bind, position. rewrite Ep, warn_accepts by exact Ha. eexists. split; reflexivity.
  - exists (p_log s). split; [destruct s; reflexivity|]. rewrite app_nil_r. reflexivity.
Qed.

Lemma end_step : forall O s off bs (marked : bool) n st, at_off s off ((if marked then end_marker ver else []) ++ bs) ->
  p_stack s = n :: st -> sn_end n = (off + (if marked then header_size ver else 0))%N ->
  match st with [] => True | m :: _ => (sn_attrs_end m <= sn_end n)%N end ->
  exists s', run_op (@ONext O) s = (Ok (BEvent EvEnd), s') /\ at_off s' (sn_end n) bs /\ p_stack s' = st /\
    p_last s' = Some KEnd /\ p_top s' = p_top s /\
    warned s' = warned s ++ (if marked then (if extra_marker n then [ExtraNodeEndMarker] else [])
                             else (if missing_marker s n then [MissingNodeEndMarker] else [])).
Proof.
  intros O s off bs marked n st H Es En Pa. pose proof H as [F _].
  destruct (skip_here _ _ _ H) as (s1 & d & E1 & M1 & R1 & P1 & Y1).
  destruct (moved_fields _ _ _ M1) as (F1 & F2 & F3 & F4 & F5 & F6 & (F7 & F8 & F9)).
  cbn [set_attrs p_ver p_health p_stack p_last p_top p_attrs p_log p_handler p_rd] in F1, F2, F3, F4, F5, F6, F7, F8, F9.
  assert (Ht : p_top s <> 0%N) by (apply (fi_top _ F); rewrite Es; discriminate).
  assert (EI : exists s3, next_event_impl (set_attrs None s) = (Ok KEnd, s3) /\ rem_of s3 = bs /\ pos_of s3 = sn_end n /\ ready s3 /\
     p_stack s3 = st /\ p_ver s3 = p_ver s /\ p_health s3 = p_health s /\ p_handler s3 = p_handler s /\ p_top s3 = p_top s /\
     r_seekable (p_rd s3) = r_seekable (p_rd s) /\
     warned s3 = warned s ++ (if marked then (if extra_marker n then [ExtraNodeEndMarker] else [])
                             else (if missing_marker s n then [MissingNodeEndMarker] else []))).
  { rewrite (impl_intro _ off (fi_health _ F : p_health (set_attrs None s) = Running) (fi_last _ F : p_last (set_attrs None s) <> _) _ E1 P1). cbv zeta.
    unfold current_node at 1. rewrite F3, Es. cbn [hd_error].
    replace (sn_end n <? off)%N with false by (symmetry; apply N.ltb_ge; lia). pose proof (header_pos ver) as HP. destruct marked.
    - replace (sn_end n =? off)%N with false by (symmetry; apply N.eqb_neq; lia).
      destruct (read_marker_mv ver s1 _ Y1 ltac:(rewrite F1; apply F) R1) as (s2 & E2 & M2 & R2 & Y2).
      rewrite (bind_ok _ _ _ _ _ _ _ E2). unfold reader_pos. rewrite bind_gets. fold (pos_of s2).
      assert (P2 : pos_of s2 = sn_end n) by (rewrite (moved_pos _ _ _ M2), P1; lia). rewrite P2.
      change (is_node_end (mkNH 0 0 0 x00)) with true. cbv iota.
      destruct (moved_fields _ _ _ M2) as (G1 & G2 & G3 & G4 & G5 & G6 & (G7 & G8 & G9)).
      rewrite bind_gets, bind_modify. unfold current_node. rewrite G3, F3, Es. cbn [hd_error]. rewrite N.eqb_refl. cbn [negb].
      destruct (warn_when (negb (sn_attrs n =? 0)%N && (sn_kids n =? 0)%N) ExtraNodeEndMarker (pop s2)) as (l & Ew & El).
      { apply (accepts_ext s2); [reflexivity|]. eapply accepts_ext; [exact G8|]. eapply accepts_ext; [exact F8|]. apply F. }
      { intros _. unfold pop. cbn [p_top set_stack]. congruence. }
      rewrite (bind_ok _ _ _ _ _ _ _ Ew). eexists. split; [reflexivity|]. unfold pop. cbn [set_log set_stack p_stack p_ver p_health p_handler p_top p_rd].
      split; [exact R2|]. split; [exact P2|]. split; [exact Y2|]. split; [rewrite G3, F3, Es; reflexivity|]. repeat (split; [congruence|]).
      unfold warned at 1. cbn [p_log set_log]. rewrite El. unfold extra_marker. f_equal. unfold warned, pop. cbn [set_stack p_log]. congruence.
    - rewrite N.add_0_r in En. replace (sn_end n =? off)%N with true by (symmetry; apply N.eqb_eq; exact En).
      rewrite bind_gets. rewrite F4.
      destruct (warn_when (match p_last s with Some KEnd => true | _ => false end || (sn_attrs n =? 0)%N) MissingNodeEndMarker s1) as (l & Ew & El).
      { eapply accepts_ext; [exact F8|]. apply F. } { intros _. congruence. }
      rewrite (bind_ok _ _ _ _ _ _ _ Ew), bind_modify. eexists. split; [reflexivity|]. unfold pop. cbn [set_log set_stack p_stack p_ver p_health p_handler p_top p_rd].
      split; [exact R1|]. split; [rewrite En; exact P1|]. split; [exact Y1|]. split; [rewrite F3, Es; reflexivity|]. repeat (split; [congruence|]).
      unfold warned at 1. cbn [p_log set_log set_stack]. rewrite El. f_equal. unfold warned. congruence. }
  destruct EI as (s3 & EI & B1 & B2 & B3 & B4 & B5 & B6 & B7 & B8 & B9 & B10).
  assert (HN : next_event (set_attrs None s) = (Ok EvEnd, set_last (Some KEnd) s3)).
  { rewrite (next_wrap _ _ _ (fi_health _ F : p_health (set_attrs None s) = Running) EI). cbn [ekind_eqb when]. rewrite bind_ret, bind_modify, bind_gets.
    assert (D : depth (set_attrs None s) = (depth (set_last (Some KEnd) s3) + 1)%N).
    { unfold depth. cbn [p_stack set_last set_attrs]. rewrite B4, Es, lenN_cons. lia. }
    rewrite D, wsub_1. cbn [N.eqb Pos.eqb assert_]. rewrite bind_ret, bind_gets. cbn [p_last set_last ekind_eqb assert_]. rewrite bind_ret. reflexivity. }
  exists (set_last (Some KEnd) s3). split; [unfold run_op; rewrite bind_modify, (bind_ok _ _ _ _ _ _ _ HN); reflexivity|].
  split.
  { split.
    - constructor; cbn [set_last p_ver p_health p_stack p_last p_top p_rd p_handler].
      + rewrite B5. apply F.
      + rewrite B6. apply F.
      + eapply accepts_ext; [exact B7|apply F].
      + exact B3.
      + rewrite B9. apply F.
      + discriminate.
      + intros _. rewrite B8. exact Ht.
    - exists []. split; [exact B1|]. split.
      + unfold unread, current_node. cbn [set_last p_stack p_rd]. rewrite B4. change (lenN (@nil byte)) with 0%N.
        destruct st as [|m st']; [reflexivity|]. cbn [hd_error]. unfold pos_of in B2. lia.
      + change (lenN (@nil byte)) with 0%N. rewrite N.add_0_r. exact B2. }
  split; [exact B4|]. split; [reflexivity|]. split; [exact B8|]. exact B10.
Qed.

Lemma fbx_step : forall O s off bs, at_off s off (end_marker ver ++ bs) -> p_stack s = [] -> u_ok 4 ver ->
  exists f s1 s', run_op (@ONext O) s = (Ok (BEvent (EvEndFbx f)), s') /\
    rem_of s1 = bs /\ pos_of s1 = (off + header_size ver)%N /\ warned s1 = warned s /\ ready s1 /\ accepts s1 /\ p_ver s1 = ver /\
    read_footer s1 = (match f with inr f => Ok f | inl e => Err e end, s').
Proof.
  intros O s off bs H Es U4. pose proof H as [F _].
  destruct (skip_here _ _ _ H) as (s1 & d & E1 & M1 & R1 & P1 & Y1).
  destruct (moved_fields _ _ _ M1) as (F1 & F2 & F3 & F4 & F5 & F6 & (F7 & F8 & F9)).
  cbn [set_attrs p_ver p_health p_stack p_last p_top p_attrs p_log p_handler p_rd] in F1, F2, F3, F4, F5, F6, F7, F8, F9.
  destruct (read_marker_mv ver s1 _ Y1 ltac:(rewrite F1; apply F) R1) as (s2 & E2 & M2 & R2 & Y2).
  destruct (moved_fields _ _ _ M2) as (G1 & G2 & G3 & G4 & G5 & G6 & (G7 & G8 & G9)).
  assert (EI : next_event_impl (set_attrs None s) = (Ok KEndFbx, pop s2)).
  { rewrite (impl_intro _ off (fi_health _ F : p_health (set_attrs None s) = Running) (fi_last _ F : p_last (set_attrs None s) <> _) _ E1 P1). cbv zeta.
    unfold current_node at 1. rewrite F3, Es. cbn [hd_error]. rewrite (bind_ok _ _ _ _ _ _ _ E2). unfold reader_pos. rewrite bind_gets.
    change (is_node_end (mkNH 0 0 0 x00)) with true. cbv iota. rewrite bind_gets, bind_modify. unfold current_node. rewrite G3, F3, Es. reflexivity. }
  set (s3 := set_last (Some KEndFbx) (set_health Finished (pop s2))).
  assert (HN : next_event (set_attrs None s) = (let* f := try_ read_footer in ret (EvEndFbx f)) s3).
  { rewrite (next_wrap _ _ _ (fi_health _ F : p_health (set_attrs None s) = Running) EI). cbn [ekind_eqb when]. rewrite bind_modify, bind_modify, bind_gets.
    assert (D1 : depth (set_attrs None s) = 0%N) by (unfold depth; cbn [p_stack set_attrs]; rewrite Es; reflexivity).
    assert (D2 : depth s3 = 0%N) by (unfold depth, s3, pop; cbn [p_stack set_last set_health set_stack]; rewrite G3, F3, Es; reflexivity).
    fold s3. rewrite D1, D2. cbn [N.eqb Pos.eqb assert_ andb]. rewrite bind_ret, bind_gets. unfold s3 at 1. cbn [p_last set_last ekind_eqb assert_]. rewrite bind_ret. reflexivity. }
  assert (A3 : accepts s3). { apply (accepts_ext s2); [reflexivity|]. eapply accepts_ext; [exact G8|]. eapply accepts_ext; [exact F8|]. apply F. }
  assert (Y3 : ready s3) by exact Y2.
  assert (V3 : p_ver s3 = ver) by (change (p_ver s3) with (p_ver s2); rewrite G1, F1; apply F).
  destruct (footer_read s3 ver Y3 A3 V3 U4) as (r & s4 & Er & K). destruct r as [ft|e|]; [| |destruct K].
  - exists (inr ft), s3, s4. split.
    { unfold run_op. rewrite bind_modify. unfold bind at 1. rewrite HN. unfold bind, try_. rewrite Er. reflexivity. }
    split; [exact R2|]. split; [change (pos_of s3) with (pos_of s2); rewrite (moved_pos _ _ _ M2), P1; reflexivity|].
    split; [|auto]. unfold warned. change (p_log s3) with (p_log s2). congruence.
  - exists (inl e), s3, s4. split.
    { unfold run_op. rewrite bind_modify. unfold bind at 1. rewrite HN. unfold bind, try_. rewrite Er. reflexivity. }
    split; [exact R2|]. split; [change (pos_of s3) with (pos_of s2); rewrite (moved_pos _ _ _ M2), P1; reflexivity|].
    split; [|auto]. unfold warned. change (p_log s3) with (p_log s2). congruence.
Qed.

(** ** Whole nodes *)
Definition seen {O} (l : list event) : list (res perr (obs O)) := map (fun e => Ok (BEvent e)) l.

Lemma seen_app : forall O a b, @seen O (a ++ b) = seen a ++ seen b.
Proof. intros. apply map_app. Qed.
Lemma seen_calm : forall O a, existsb is_panic (@seen O a) = false.
Proof. intros O a. induction a; [reflexivity|assumption]. Qed.

Lemma run_seen : forall O a b s s1 s2, run_ops (repeat (@ONext O) (length a)) s = (seen a, s1) ->
  run_ops (repeat (@ONext O) (length b)) s1 = (seen b, s2) -> run_ops (repeat (@ONext O) (length (a ++ b))) s = (@seen O (a ++ b), s2).
Proof.
  intros O a b s s1 s2 E1 E2. rewrite app_length, repeat_app, run_ops_app, E1, seen_calm, E2, seen_app. reflexivity.
Qed.
Lemma run_one : forall O e s s1, run_op (@ONext O) s = (Ok (BEvent e), s1) -> run_ops (repeat (@ONext O) (length [e])) s = (seen [e], s1).
Proof. intros O e s s1 E. cbn [length repeat run_ops]. rewrite E. reflexivity. Qed.

Definition bump (m : N) (st : list started) : list started :=
  match st with
  | [] => []
  | n :: t => mkStarted (sn_start n) (sn_end n) (sn_attrs n) (sn_attrs_end n) (sn_name n) (sn_kids n + m) :: t
  end.
Lemma bump_0 : forall st, bump 0 st = st.
Proof. intros [|[] t]; cbn; [reflexivity|]. rewrite N.add_0_r. reflexivity. Qed.
Lemma bump_bump : forall a b st, bump b (bump a st) = bump (a + b) st.
Proof. intros a b [|n t]; cbn; [reflexivity|]. rewrite N.add_assoc. reflexivity. Qed.
Lemma count_bump : forall s, p_stack (count_child s) = bump 1 (p_stack s).
Proof. intros s. unfold count_child. destruct (p_stack s) eqn:E; [exact E|reflexivity]. Qed.

(** The nodes to read are within the innermost open node. *)
Definition within (lo hi : N) (st : list started) : Prop :=
  match st with [] => True | n :: _ => (sn_attrs_end n <= lo /\ hi <= sn_end n)%N end.
Lemma within_bump : forall m lo hi st, within lo hi (bump m st) <-> within lo hi st.
Proof. intros m lo hi [|n t]; cbn; tauto. Qed.

Lemma run_skel : forall O k s off bs, at_off s off (lay_skel ver off k ++ bs) -> skel_ok wraps ver off k ->
  within off (off + skel_size ver k) (p_stack s) ->
  exists s', run_ops (repeat (@ONext O) (length (skel_events k))) s = (seen (skel_events k), s') /\
    at_off s' (off + skel_size ver k) bs /\ p_stack s' = bump 1 (p_stack s) /\ p_last s' = Some KEnd /\
    warned s' = warned s ++ skel_warnings k.
Proof.
  intros O. induction k as [name count claimed region kids marked IH] using skel_ind'.
  intros s off bs H Ok Pa. rewrite lay_skel_eq in H. rewrite <- !app_assoc in H. apply skel_ok_eq in Ok. destruct Ok as (U1 & U2 & Ue & Uc & Ua & Ro & Ks).
  set (k := Skel name count claimed region kids marked) in *.
  assert (Sz : skel_size ver k = (header_size ver + lenN name + lenN region + skels_size ver kids + (if marked then header_size ver else 0))%N) by apply skel_size_eq.
  pose proof (header_pos ver) as HP.
  assert (Lt : (off + skel_size ver k < pow2_64)%N) by (unfold u_ok in Ue; pose proof (width_le ver); change pow2_64 with (2^64)%N; lia).
  destruct (start_step O s off (off + skel_size ver k) count claimed name region _ H) as (s1 & aend & E1 & A1 & S1 & X1 & L1 & T1 & W1); auto; try lia.
  { destruct (p_stack s); [exact I|]. cbn in Pa. lia. }
  set (off1 := (off + header_size ver + lenN name + lenN region)%N) in *.
  assert (K : forall l s1 o bs1, Forall (fun k => forall s off bs, at_off s off (lay_skel ver off k ++ bs) -> skel_ok wraps ver off k ->
                within off (off + skel_size ver k) (p_stack s) ->
                exists s', run_ops (repeat (@ONext O) (length (skel_events k))) s = (seen (skel_events k), s') /\
                  at_off s' (off + skel_size ver k) bs /\ p_stack s' = bump 1 (p_stack s) /\ p_last s' = Some KEnd /\
                  warned s' = warned s ++ skel_warnings k) l ->
     at_off s1 o (lay_skels ver o l ++ bs1) -> skels_ok wraps ver o l -> within o (o + skels_size ver l) (p_stack s1) ->
     exists s', run_ops (repeat (@ONext O) (length (flat_map skel_events l))) s1 = (seen (flat_map skel_events l), s') /\
       at_off s' (o + skels_size ver l) bs1 /\ p_stack s' = bump (lenN l) (p_stack s1) /\
       p_last s' = (match l with [] => p_last s1 | _ => Some KEnd end) /\ warned s' = warned s1 ++ flat_map skel_warnings l).
  { clear. induction l as [|k l IHl]; intros s1 o bs1 F A Ks Wi.
    - exists s1. split; [reflexivity|]. cbn [skels_size fold_right]. rewrite N.add_0_r. split; [exact A|]. split; [symmetry; apply bump_0|].
      split; [reflexivity|]. cbn [flat_map]. rewrite app_nil_r. reflexivity.
    - inversion F as [|? ? F1 F2]; subst. destruct Ks as (K1 & K2). cbn [lay_skels] in A. rewrite <- app_assoc in A.
      rewrite skels_size_cons in *. pose proof (skel_size_pos ver k) as SP.
      destruct (F1 s1 o _ A K1) as (s2 & E2 & A2 & S2 & L2 & W2). { destruct (p_stack s1); [exact I|]. cbn in *. lia. }
      destruct (IHl s2 _ bs1 F2 A2 K2) as (s3 & E3 & A3 & S3 & L3 & W3).
      { rewrite S2. apply within_bump. destruct (p_stack s1); [exact I|]. cbn in *. lia. }
      exists s3. cbn [flat_map]. split; [eapply run_seen; eassumption|]. split; [rewrite N.add_assoc; exact A3|].
      split; [rewrite S3, S2, bump_bump, lenN_cons; reflexivity|]. split; [rewrite L3, L2; destruct l; reflexivity|].
      rewrite W3, W2, app_assoc. reflexivity. }
  destruct (K kids s1 off1 _ IH A1 Ks) as (s2 & E2 & A2 & S2 & L2 & W2).
  { rewrite S1. cbn [within sn_attrs_end sn_end]. unfold off1 in *. clearbody k. lia. }
  rewrite S1 in S2. cbn [bump sn_start sn_end sn_attrs sn_attrs_end sn_name sn_kids] in S2. rewrite N.add_0_l in S2.
  destruct (end_step O s2 _ bs marked _ _ A2 S2) as (s3 & E3 & A3 & S3 & L3 & T3 & W3).
  { cbn [sn_end]. unfold off1. clearbody k. lia. }
  { rewrite count_bump. cbn [sn_end]. destruct (p_stack s); [exact I|]. cbn in *. lia. }
  exists s3. unfold k at 1 2. rewrite skel_events_eq. change (EvStart name :: flat_map skel_events kids ++ [EvEnd]) with ([EvStart name] ++ flat_map skel_events kids ++ [EvEnd]).
  split; [eapply run_seen; [apply run_one; exact E1|]; eapply run_seen; [exact E2|apply run_one; exact E3]|].
  split; [exact A3|]. split; [rewrite S3; apply count_bump|]. split; [exact L3|].
  unfold k. rewrite W3, W2, W1, skel_warnings_eq, <- !app_assoc. do 3 f_equal. unfold end_warnings, extra_marker, missing_marker. cbn [sn_attrs sn_kids]. rewrite L2, L1.
  destruct kids as [|k1 kids]; [change (lenN (@nil skel)) with 0%N|rewrite lenN_cons; replace (1 + lenN kids =? 0)%N with false by (symmetry; apply N.eqb_neq; lia)];
    destruct marked, (count =? 0)%N; reflexivity.
Qed.

Lemma run_skels : forall O l s o bs, at_off s o (lay_skels ver o l ++ bs) -> skels_ok wraps ver o l -> p_stack s = [] ->
  exists s', run_ops (repeat (@ONext O) (length (flat_map skel_events l))) s = (seen (flat_map skel_events l), s') /\
    at_off s' (o + skels_size ver l) bs /\ p_stack s' = [] /\ warned s' = warned s ++ flat_map skel_warnings l.
Proof.
  intros O. induction l as [|k l IH]; intros s o bs A Ks Es.
  - exists s. split; [reflexivity|]. cbn [skels_size fold_right flat_map]. rewrite N.add_0_r, app_nil_r. auto.
  - destruct Ks as (K1 & K2). cbn [lay_skels] in A. rewrite <- app_assoc in A. rewrite skels_size_cons.
    destruct (run_skel O k s o _ A K1) as (s2 & E2 & A2 & S2 & L2 & W2). { rewrite Es. exact I. }
    destruct (IH s2 _ bs A2 K2) as (s3 & E3 & A3 & S3 & W3). { rewrite S2, Es. reflexivity. }
    exists s3. cbn [flat_map]. split; [eapply run_seen; eassumption|]. split; [rewrite N.add_assoc; exact A3|]. split; [exact S3|]. rewrite W3, W2, app_assoc. reflexivity.
Qed.

(** A whole document. *)
Lemma run_doc : forall O l s bs, at_off s 27 (lay_skels ver 27 l ++ end_marker ver ++ bs) -> skels_ok wraps ver 27 l -> p_stack s = [] -> u_ok 4 ver ->
  exists f s1 s', run_ops (repeat (@ONext O) (S (length (flat_map skel_events l)))) s = (seen (flat_map skel_events l ++ [EvEndFbx f]), s') /\
    rem_of s1 = bs /\ warned s1 = warned s ++ flat_map skel_warnings l /\ ready s1 /\ accepts s1 /\ p_ver s1 = ver /\
    read_footer s1 = (match f with inr f => Ok f | inl e => Err e end, s').
Proof.
  intros O l s bs A Ks Es U4. destruct (run_skels O l s 27 _ A Ks Es) as (s1 & E1 & A1 & S1 & W1).
  destruct (fbx_step O s1 _ bs A1 S1 U4) as (f & s2 & s3 & E2 & R2 & P2 & W2 & Y2 & C2 & V2 & F2).
  exists f, s2, s3. split.
  { replace (S (length (flat_map skel_events l))) with (length (flat_map skel_events l ++ [EvEndFbx f])) by (rewrite app_length; cbn; lia).
    eapply run_seen; [exact E1|apply run_one; exact E2]. }
  split; [exact R2|]. split; [congruence|auto].
Qed.
End WithEnv.
