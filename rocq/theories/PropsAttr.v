(** Loading attributes: round trip (read half), booleans, confinement, truncation, iterators
    (C15, C17, C18, C19, C21, C42, C43). *)
Require Import Coq.Lists.List Coq.NArith.NArith Coq.ZArith.ZArith Coq.Bool.Bool Coq.micromega.Lia.
Require Import Coq.Init.Byte.
Require Import ZifyBool ZifyNat ZifyN.
Require Import Verif.Base Verif.BaseFacts Verif.Utf8 Verif.Types Verif.Io Verif.IoFacts Verif.Parser Verif.MonadFacts Verif.Zlib Verif.Moves Verif.Loaders Verif.Spec Verif.ReadFacts Verif.ParserSteps Verif.ParserShape Verif.ParserHist Verif.ParserPos Verif.AttrLoad Verif.AttrAny Verif.PropsSafety Verif.Samples.
Import ListNotations.
Ltac Zify.zify_post_hook ::= Z.div_mod_to_equations.
Open Scope monad_scope.

(** [load_next] or [load_next_buffered]. *)
Definition load_op {O} (buffered : bool) (ld : loader O) : op O := if buffered then OLoadBuf ld else OLoad ld.

Section WithEnv.
Context {env : Env}.

Lemma load_op_run : forall O b (ld : loader O) s, p_attrs s <> None ->
  run_op (load_op b ld) s = (let* v := load_next_gen b ld in ret (BAttr v)) s.
Proof. intros O [] ld s H; cbn [load_op run_op]; rewrite bind_gets; (destruct (p_attrs s); [reflexivity|tauto]). Qed.
Lemma next_at_attrs : forall s n bs, next_at s n bs -> p_attrs s <> None.
Proof. intros s n bs (_ & _ & _ & a & junk & Ha & _). congruence. Qed.

(** ** C15: attributes of a document are loaded bit for bit *)

(** Loading the attributes [ats] in order with [DirectLoader] gives their values; then [None]. *)
Theorem C15_load_all : forall b ats s rest, zlib_roundtrip env -> Forall attr_ok ats ->
  next_at s (lenN ats) (enc_attrs ats ++ rest) ->
  exists s', run_ops (repeat (load_op b direct_loader) (length ats)) s
             = (map (fun a => Ok (BAttr (Some (at_val a)))) ats, s') /\
    next_at s' 0 rest /\ run_op (load_op b direct_loader) s' = (Ok (BAttr None), s').
Proof.
  intros b ats. induction ats as [|at0 ats IH]; intros s rest HZ Hok H.
  - cbn in *. exists s. split; [reflexivity|]. split; [exact H|]. rewrite load_op_run by (eapply next_at_attrs; eauto).
    unfold bind. rewrite (next_at_none aval b _ _ _ H). reflexivity.
  - inversion Hok as [|? ? Hok1 Hok2]; subst. cbn [enc_attrs flat_map] in H. rewrite <- app_assoc in H. rewrite lenN_cons in H.
    destruct (next_at_direct HZ b s _ at0 _ H) as (s1 & E1); [lia|exact Hok1|].
    pose proof (next_at_step HZ aval b direct_loader s _ at0 _ _ s1 H ltac:(lia) Hok1 E1) as H2.
    replace (1 + lenN ats - 1)%N with (lenN ats) in H2 by lia.
    destruct (IH s1 rest HZ Hok2 H2) as (s' & E2 & N2 & L2). exists s'. split; [|split; assumption].
    cbn [length repeat run_ops]. rewrite load_op_run by (eapply next_at_attrs; eauto). unfold bind at 1. rewrite E1. cbn [ret].
    rewrite E2. reflexivity.
Qed.

(** Whatever loader is used, as long as it succeeds, the reader stays inside the bytes of the
    attribute, and the next attribute is found right after them. *)
Theorem C15_any_loader : forall O b (ld : loader O) s n at0 rest v s', zlib_roundtrip env -> attr_ok at0 ->
  next_at s n (enc_attr at0 ++ rest) -> (1 <= n)%N ->
  run_op (load_op b ld) s = (Ok (BAttr v), s') ->
  next_at s' (n - 1) rest /\ exists unread, rem_of s' = unread ++ rest /\ (lenN unread < lenN (enc_attr at0))%N.
Proof.
  intros O b ld s n at0 rest v s' HZ Hok H H1 HL. rewrite load_op_run in HL by (eapply next_at_attrs; eauto).
  unfold bind in HL. destruct (load_next_gen b ld s) as [[w|e|] s1] eqn:E1; try discriminate. injection HL as <- <-.
  split; [eapply next_at_step; eauto|].
  pose proof H as (Hh & _ & Hp & _). rewrite enc_attr_split in H. cbn [app] in H.
  destruct (next_at_load O b ld s n _ _ _ H H1 (type_code_spec _)) as (start & idx & s2 & a1 & T1 & A1 & Y1 & R1 & G).
  destruct (load_next_impl b (aval_type (at_val at0)) ld start idx s2) as [r s3] eqn:E2. pose proof (G _ _ eq_refl) as G2.
  assert (P1 : p_attrs s2 = Some a1) by (rewrite T1; reflexivity).
  destruct r as [x|e|].
  - rewrite G2 in E1. injection E1 as <- <-.
    destruct (load_impl_ok HZ O b ld at0 start idx s2 a1 rest _ s3 Y1 P1 R1 Hok E2 ltac:(discriminate)) as (m & Hm & t & Mt & ->).
    exists (dropN m (attr_body at0)). change (rem_of (set_attrs _ t)) with (rem_of t). rewrite (moved_rem' _ _ _ Mt), R1, dropN_app_le by lia.
    split; [reflexivity|]. rewrite enc_attr_split, lenN_cons, lenN_dropN. lia.
  - destruct (load_impl_ok HZ O b ld at0 start idx s2 a1 rest _ s3 Y1 P1 R1 Hok E2 ltac:(discriminate)) as (m & Hm & t & Mt & ->).
    pose proof Mt as (Et & _).
    assert (Q : position_of (set_attrs (Some (mkAttrs (a_total a1) (a_rest a1) (pos_of s2 + lenN (attr_body at0)))) t) <> None)
      by (apply (position_same s); [cbn; rewrite Et, T1; reflexivity|cbn; rewrite Et, T1; reflexivity|exact Hp]).
    match type of Q with position_of ?u <> None => destruct (position_of u) as [q|]; [|tauto] end. destruct (G2 q eq_refl) as (p & G3). rewrite G3 in E1. discriminate.
  - rewrite G2 in E1. discriminate.
Qed.

(** ** C17: booleans *)

(** 'T' and 'Y' are the correct representations. *)
Definition correct_bool (b : byte) : Prop := b = x54 \/ b = x59.

Lemma bool_raw_bad_spec : forall b, bool_raw_bad b = false <-> correct_bool b.
Proof.
  intros b. unfold bool_raw_bad, correct_bool. split.
  - destruct b; cbn; intros H; try discriminate; tauto.
  - intros [->| ->]; reflexivity.
Qed.

(** What the client sees of a loader's result. *)
Definition loaded {O} (r : perr + O) (x : res perr (obs O)) : Prop :=
  match r with inr v => x = Ok (BAttr (Some v)) | inl e => exists q, x = Err (and_position e q) end.
(** Exactly one boolean warning if [bad], none otherwise. *)
Definition bool_warned (bad : bool) (log log' : list (warning * synpos)) : Prop :=
  if bad then exists q, log' = (IncorrectBooleanRepresentation, q) :: log else log' = log.

Lemma warn_bool_ok : forall start idx s, position_of s <> None -> p_handler s = None ->
  exists q, warn_bool start idx s = (Ok tt, set_log ((IncorrectBooleanRepresentation, q) :: p_log s) s).
Proof.
  intros start idx s Hp Hh. unfold warn_bool, attr_position, position. unfold bind.
  destruct (position_of s) as [p|]; [|tauto]. cbn. unfold warn. rewrite Hh. eexists. reflexivity.
Qed.

Theorem C17_boolean : forall O b (ld : loader O) s n raw rest,
  next_at s n (spec_code TBool :: raw :: rest) -> (1 <= n)%N -> p_handler s = None ->
  exists x s', run_op (load_op b ld) s = (x, s') /\
    loaded (ld_bool ld (N.odd (bN raw))) x /\
    (correct_bool raw -> p_log s' = p_log s) /\
    (~ correct_bool raw -> exists q, p_log s' = (IncorrectBooleanRepresentation, q) :: p_log s).
Proof.
  intros O b ld s n raw rest H H1 Hd. pose proof H as (Hh & _ & Hp & _).
  destruct (next_at_load O b ld s n _ _ TBool H H1 (type_code_spec _)) as (start & idx & s1 & a1 & T1 & A1 & Y1 & R1 & G).
  cbn [load_next_impl] in G.
  destruct (read_exact_mv 1 s1 [raw] rest Y1 R1 eq_refl) as (s2 & E2 & M2 & R2 & Y2).
  assert (P1 : p_attrs s2 = Some a1) by (rewrite (moved_p_attrs _ _ _ M2), T1; reflexivity).
  destruct (update_mv 0 s2 a1 Y2 P1 ltac:(lia)) as (s3 & E3 & (t3 & N3 & T3) & R3 & P3 & Y3).
  assert (ST : p_stack s3 = p_stack s /\ p_top s3 = p_top s /\ p_log s3 = p_log s /\ p_handler s3 = p_handler s).
  { destruct M2 as (M2 & _). destruct N3 as (N3 & _). rewrite T3. cbn. rewrite N3, M2, T1. cbn. auto. }
  destruct ST as (S1 & S2 & S3 & S4).
  assert (Q : forall t, p_stack t = p_stack s3 -> p_top t = p_top s3 -> position_of t <> None).
  { intros t X1 X2. apply (position_same s); congruence. }
  assert (W : exists s4, (when (bool_raw_bad raw) (warn_bool start idx)) s3 = (Ok tt, s4) /\
             bool_warned (bool_raw_bad raw) (p_log s3) (p_log s4) /\ position_of s4 <> None).
  { destruct (bool_raw_bad raw); cbn [when bool_warned].
    - destruct (warn_bool_ok start idx s3) as (q & Eq); [apply Q; reflexivity|congruence|]. eexists. split; [exact Eq|]. split; [eexists; reflexivity|]. apply Q; reflexivity.
    - exists s3. split; [reflexivity|]. split; [reflexivity|]. apply Q; reflexivity. }
  destruct W as (s4 & E4 & W4 & Q4).
  assert (E5 : (let* raw0 := parse_u8 in update_next_attr_start_offset 0 ;; when (bool_raw_bad raw0) (warn_bool start idx) ;; lift (ld_bool ld (bool_of_raw raw0))) s1
            = lift (ld_bool ld (bool_of_raw raw)) s4).
  { unfold parse_u8. rewrite bind_assoc, (bind_ok _ _ _ _ _ _ _ E2), bind_ret. cbn [hd].
    rewrite (bind_ok _ _ _ _ _ _ _ E3), (bind_ok _ _ _ _ _ _ _ E4). reflexivity. }
  assert (L4 : (correct_bool raw -> p_log s4 = p_log s) /\ (~ correct_bool raw -> exists q, p_log s4 = (IncorrectBooleanRepresentation, q) :: p_log s)).
  { rewrite <- S3. pose proof (bool_raw_bad_spec raw) as B. unfold bool_warned in W4. destruct (bool_raw_bad raw).
    - split; [intros C; apply B in C; discriminate | intros _; exact W4].
    - split; [intros _; exact W4 | intros C; exfalso; apply C, B; reflexivity]. }
  rewrite load_op_run by (eapply next_at_attrs; eauto). unfold bind at 1.
  rewrite E5 in G. unfold bool_of_raw in G. destruct (ld_bool ld (N.odd (bN raw))) as [e|v].
  - specialize (G _ _ eq_refl). destruct (position_of s4) as [q|]; [|tauto]. destruct (G q eq_refl) as (p & G1). rewrite G1.
    do 2 eexists. split; [reflexivity|]. split; [eexists; reflexivity|]. exact L4.
  - specialize (G _ _ eq_refl). cbv beta iota in G. rewrite G. do 2 eexists. split; [reflexivity|]. split; [reflexivity|]. exact L4.
Qed.

(** Boolean arrays, direct or compressed.  A loader is a program over an iterator;
    [pure_seq p vals] is what it computes when the iterator yields [vals], and what it leaves
    unread.  The warning is raised once, iff an element the loader read is incorrect (and the
    loader succeeds). *)
Theorem C17_boolean_array : forall O b (ld : loader O) s n zip raws rest,
  zlib_roundtrip env ->
  let payload := array_payload zip (map (fun raw => [raw]) raws) in
  next_at s n (spec_code TArrBool :: le_enc 4 (lenN raws) ++ le_enc 4 (if zip then 1 else 0) ++
               le_enc 4 (lenN payload) ++ payload ++ rest) ->
  (1 <= n)%N -> u_ok 4 (lenN raws) -> u_ok 4 (lenN payload) -> p_handler s = None ->
  let vals := map (fun raw => N.odd (bN raw)) raws in
  let result := fst (pure_seq (ld_abool ld (lenN raws)) vals) in
  exists x s' used unread, raws = used ++ unread /\
    snd (pure_seq (ld_abool ld (lenN raws)) vals) = map (fun raw => N.odd (bN raw)) unread /\
    run_op (load_op b ld) s = (x, s') /\ loaded result x /\
    match result with
    | inl _ => p_log s' = p_log s
    | inr _ => (Forall correct_bool used -> p_log s' = p_log s) /\
               (~ Forall correct_bool used -> exists q, p_log s' = (IncorrectBooleanRepresentation, q) :: p_log s)
    end.
Proof.
  intros O b ld s n zip raws rest HZ payload H H1 U1 U2 Hd vals result. pose proof H as (Hh & _ & Hp & _).
  destruct (next_at_load O b ld s n _ _ TArrBool H H1 (type_code_spec _)) as (start & idx & s1 & a1 & T1 & A1 & Y1 & R1 & G).
  cbn [load_next_impl] in G.
  assert (P1 : p_attrs s1 = Some a1) by (rewrite T1; reflexivity).
  pose proof (load_array_gen HZ bool O el_bool (ld_abool ld) (map (fun x => [x]) raws) zip start idx s1 a1 rest Y1 P1) as LA.
  cbv zeta in LA. fold payload in LA.
  assert (EL : lenN (map (fun x : byte => [x]) raws) = lenN raws) by (unfold lenN; rewrite map_length; reflexivity). rewrite EL in LA.
  destruct (LA R1 U1 U2) as (m & s2 & used & E2 & Hm & (t & Mt & Tt) & Hu & Hs).
  { apply Forall_forall. intros x Hx. apply in_map_iff in Hx. destruct Hx as (y & <- & _). reflexivity. }
  rewrite map_map in E2, Hs. change (map (fun x : byte => el_dec el_bool [x]) raws) with vals in E2, Hs. fold result in E2.
  pose proof Mt as (Et & _).
  assert (ST : p_stack s2 = p_stack s /\ p_top s2 = p_top s /\ p_log s2 = p_log s /\ p_handler s2 = p_handler s).
  { rewrite Tt. cbn. rewrite Et, T1. cbn. auto. }
  destruct ST as (S1 & S2 & S3 & S4).
  assert (Q : position_of s2 <> None) by (apply (position_same s); congruence).
  set (k := length used) in *.
  assert (EU : used = map (fun x => [x]) (firstn k raws)).
  { assert (F : firstn k (map (fun x : byte => [x]) raws) = used) by (rewrite Hu; unfold k; rewrite firstn_app, Nat.sub_diag, firstn_O, app_nil_r; apply firstn_all).
    rewrite firstn_map in F. congruence. }
  assert (EB : existsb (el_bad el_bool) used = existsb bool_raw_bad (firstn k raws)).
  { rewrite EU. generalize (firstn k raws). induction l as [|y l IH]; [reflexivity|]. cbn. rewrite <- IH. reflexivity. }
  assert (EF : existsb bool_raw_bad (firstn k raws) = false <-> Forall correct_bool (firstn k raws)).
  { clear. generalize (firstn k raws). induction l as [|y l IH]; [split; constructor|]. cbn. rewrite orb_false_iff, IH, bool_raw_bad_spec. split.
    - intros [? ?]. constructor; assumption.
    - intros F. inversion F; subst. split; assumption. }
  rewrite EB in E2. rewrite load_op_run by (eapply next_at_attrs; eauto). unfold bind at 1. unfold bind in E2 at 1. rewrite lift_res in E2.
  assert (SU : snd (pure_seq (ld_abool ld (lenN raws)) vals) = map (fun raw => N.odd (bN raw)) (skipn k raws)).
  { rewrite (proj1 Hs). rewrite skipn_map, map_map. reflexivity. }
  assert (FS : raws = firstn k raws ++ skipn k raws) by (symmetry; apply firstn_skipn).
  destruct result as [e|v]; cbn [as_res] in E2.
  - specialize (G _ _ E2). destruct (position_of s2) as [q|]; [|tauto]. destruct (G q eq_refl) as (p & G1). rewrite G1.
    do 2 eexists. exists (firstn k raws), (skipn k raws). split; [exact FS|]. split; [exact SU|]. split; [reflexivity|]. split; [eexists; reflexivity|]. cbn. exact S3.
  - destruct (existsb bool_raw_bad (firstn k raws)) eqn:Eb; cbn [when] in E2.
    + destruct (warn_bool_ok start idx s2 Q) as (q & Eq); [congruence|]. rewrite (bind_ok _ _ _ _ _ _ _ Eq) in E2. cbn [ret] in E2.
      specialize (G _ _ E2). cbv beta iota in G. rewrite G. do 2 eexists. exists (firstn k raws), (skipn k raws).
      split; [exact FS|]. split; [exact SU|]. split; [reflexivity|]. split; [reflexivity|]. split.
      * intros C. apply EF in C. discriminate.
      * intros _. exists q. cbn. rewrite S3. reflexivity.
    + cbn in E2. specialize (G _ _ E2). cbv beta iota in G. rewrite G. do 2 eexists. exists (firstn k raws), (skipn k raws).
      split; [exact FS|]. split; [exact SU|]. split; [reflexivity|]. split; [reflexivity|]. split.
      * intros _. exact S3.
      * intros C. exfalso. apply C, EF. reflexivity.
Qed.

(** ** C18: binary and string loads are confined *)

(** [s'] is [s] with at most [k] more bytes of the stream consumed. *)
Definition consumed_upto (k : N) (s s' : pstate) : Prop :=
  exists d, (d <= k)%N /\ rem_of s' = dropN d (rem_of s).

Lemma cu_refl : forall k s s', p_rd s' = p_rd s -> consumed_upto k s s'.
Proof. intros k s s' E. exists 0%N. split; [lia|]. unfold rem_of. rewrite E, dropN_0. reflexivity. Qed.
Lemma cu_trans : forall k k' a b c, consumed_upto k a b -> consumed_upto k' b c -> consumed_upto (k + k') a c.
Proof. intros k k' a b c (d & H1 & E1) (d' & H2 & E2). exists (d + d')%N. split; [lia|]. rewrite E2, E1. apply dropN_dropN. Qed.
Lemma cu_le : forall k k' a b, (k <= k')%N -> consumed_upto k a b -> consumed_upto k' a b.
Proof. intros k k' a b H (d & H1 & E). exists d. split; [lia|exact E]. Qed.
Lemma cu_within : forall k a b, within k a b -> consumed_upto k a b.
Proof. intros k a b (d & H1 & H2 & H3). exists d. split; [exact H1|]. apply moved_rem'. exact H3. Qed.
Lemma cu_rd : forall k a b b', p_rd b' = p_rd b -> consumed_upto k a b -> consumed_upto k a b'.
Proof. intros k a b b' E (d & H1 & H2). exists d. unfold rem_of in *. rewrite E. auto. Qed.

Lemma read_exact_mv' : forall n, mv (N.of_nat n) (read_exact n).
Proof.
  intros n. unfold read_exact. replace (N.of_nat n) with (N.of_nat n + 0)%N by lia.
  apply mv_bind; [apply mv_exact|]. intros [e|bs]; [apply mv_throw|apply mv_ret].
Qed.

Lemma load_special_confined : forall O (ld : N -> rdprog O) s len rest r s', rem_of s = le_enc 4 len ++ rest -> u_ok 4 len ->
  load_special ld s = (r, s') -> r <> Panic -> consumed_upto (4 + len) s s'.
Proof.
  intros O ld s len rest r s' E U H Hp. unfold load_special in H. mstep H as l s1 E1.
  - pose proof (parse_uint_bytes _ _ _ _ E1) as (B & _). unfold rem_of in E. rewrite E in B.
    assert (C1 : consumed_upto 4 s s1).
    { unfold parse_uint in E1. mstep E1 as bs s2 E2; try discriminate. injection E1 as <- <-. apply cu_within. apply (read_exact_mv' 4 _ _ _ E2). discriminate. }
    assert (l = len) as ->.
    { apply (f_equal (firstn 4)) in B. rewrite !firstn_len_app in B by apply le_enc_length.
      apply (f_equal le_dec) in B. rewrite le_dec_enc in B by exact U.
      rewrite B. unfold parse_uint in E1. mstep E1 as bs s2 E2; try discriminate. injection E1 as <- <-. apply read_exact_bytes in E2.
      destruct E2 as (_ & L2 & _). replace 4%nat with (length bs) by exact L2. rewrite le_enc_dec. reflexivity. }
    apply (cu_trans 4 len _ s1); [exact C1|].
    mstep H as u s2 E2.
    + assert (R2 : p_rd s2 = p_rd s1).
      { unfold update_next_attr_start_offset, get_attrs, reader_pos in E2. rewrite bind_gets in E2. unfold bind at 1 in E2. rewrite bind_gets in E2.
        destruct (p_attrs s1); cbn in E2; [|discriminate]. destruct (_ <? _)%N; [|discriminate]. injection E2 as <- <-. reflexivity. }
      mstep H as v s3 E3.
      * pose proof (run_rd_mv _ _ _ _ _ _ E3 ltac:(discriminate)) as E3'. clear E3. rename E3' into E3. rewrite lift_res in H. injection H as <- <-. apply cu_within in E3.
        destruct E3 as (d & D1 & D2). exists d. unfold rem_of in *. rewrite R2 in D2. auto.
      * subst r. pose proof (run_rd_mv _ _ _ _ _ _ E3 ltac:(discriminate)) as E3'. clear E3. rename E3' into E3. apply cu_within in E3.
        destruct E3 as (d & D1 & D2). exists d. unfold rem_of in *. rewrite R2 in D2. auto.
      * congruence.
    + subst r. unfold update_next_attr_start_offset, get_attrs, reader_pos in E2. rewrite bind_gets in E2. unfold bind at 1 in E2. rewrite bind_gets in E2.
      destruct (p_attrs s1); cbn in E2; [|discriminate]. destruct (_ <? _)%N; discriminate.
    + congruence.
  - subst r. apply (cu_le 4); [lia|]. unfold parse_uint in E1. mstep E1 as bs s2 E2; try discriminate.
    injection E1 as <-. apply cu_within. apply (read_exact_mv' 4 _ _ _ E2). discriminate.
  - congruence.
Qed.

(** Whatever the stream contains, whatever the reads and seeks do (short reads, failures),
    whatever the loader does and returns: with the next attribute at [code, length, ...] after
    [junk] unread bytes, at most the attribute's 5 + [len] bytes (and the [junk]) are
    consumed. *)
Theorem C18_confined : forall O b (ld : loader O) s a junk t len rest x s',
  t = TBinary \/ t = TString -> u_ok 4 len ->
  p_attrs s = Some a -> a_next a = (pos_of s + lenN junk)%N ->
  rem_of s = junk ++ spec_code t :: le_enc 4 len ++ rest ->
  run_op (load_op b ld) s = (x, s') -> x <> Panic ->
  consumed_upto (lenN junk + 5 + len) s s'.
Proof.
  intros O b ld s a junk t len rest x s' Ht U Ha Hx E HL Hp. rewrite load_op_run in HL by congruence.
  assert (G : exists r, load_next_gen b ld s = (r, s') /\ r <> Panic).
  { unfold bind in HL. destruct (load_next_gen b ld s) as [[v|e|] s1] eqn:E1; injection HL as <- <-; eexists; (split; [reflexivity|congruence]). }
  destruct G as (r & G & Hr). apply load_next_shape in G; [|exact Hr].
  destruct (p_health s) eqn:Hh; [|apply cu_refl; destruct G as [-> _]; reflexivity|apply cu_refl; destruct G as [-> _]; reflexivity].
  destruct G as (a0 & Ea & r0 & s1 & Eb & Hp0 & G). rewrite Ha in Ea. injection Ea as <-.
  assert (C : consumed_upto (lenN junk + 5 + len) s s1).
  2:{ destruct r as [v|e|]; [destruct G as (_ & ->); exact C| |tauto]. destruct G as (e0 & p0 & _ & _ & -> & _). exact C. }
  clear G HL Hp Hr r x s' Hh. unfold load_body, read_next_attr_type, get_attrs, reader_pos in Eb.
  rewrite !bind_assoc, bind_gets, Ha, bind_ret in Eb. cbv beta in Eb.
  destruct (a_rest a =? 0)%N. { rewrite bind_ret in Eb. injection Eb as <- <-. apply cu_refl. reflexivity. }
  rewrite bind_assoc, bind_gets, bind_assoc in Eb.
  assert (SK : forall rr s2, when (r_pos (p_rd s) <? a_next a)%N (m_skip_to (a_next a)) s = (rr, s2) -> rr <> Panic ->
     match rr with Ok _ => exists d, (d <= lenN junk)%N /\ rem_of s2 = dropN d (rem_of s) /\ (forall c l, rem_of s2 = c :: l -> d = lenN junk)
                 | _ => consumed_upto (lenN junk) s s2 end).
  { intros rr s2 K Hq. fold (pos_of s) in K. destruct (pos_of s <? a_next a)%N eqn:El.
    - cbn [when] in K. unfold m_skip_to, rdop, bind in K. destruct (skip_to (a_next a) (p_rd s)) as [o r'] eqn:Es. pose proof Es as Es'. apply skip_to_spec in Es.
      destruct o as [[e|]|]; [| |injection K as <- <-; congruence].
      + injection K as <- <-. destruct Es as [_ Es]. destruct (r_seekable (p_rd s)).
        * destruct Es as (d & D1 & D2 & _). exists d. unfold rem_of, pos_of in *. split; [lia|exact D2].
        * destruct Es as (d & D1 & D0 & D2 & _). exists d. unfold rem_of, pos_of in *. split; [lia|exact D2].
      + injection K as <- <-. destruct Es as [_ Es]. destruct (r_seekable (p_rd s)) eqn:Ek.
        * destruct Es as (D2 & _). exists (lenN junk). unfold rem_of, pos_of in *. split; [lia|]. split; [|reflexivity]. rewrite Hx in D2.
          replace (r_pos (p_rd s) + lenN junk - r_pos (p_rd s))%N with (lenN junk) in D2 by lia. exact D2.
        * unfold skip_to, skip_distance in Es'. fold (pos_of s) in Es'. apply N.ltb_lt in El.
          assert (X : (a_next a <? pos_of s)%N = false) by (apply N.ltb_ge; lia). rewrite X, Ek in Es'. unfold skip_distance_plain in Es'.
          destruct (rte _ _ _) as [[[ee got] rem'] sc'] eqn:Er. apply rte_gen in Er. injection Es' as -> <-.
          destruct Er as (R1 & R2 & R3). specialize (R3 eq_refl). exists (lenN got).
          unfold rem_of, pos_of in *. cbn [p_rd set_rd r_stream with_stream s_rem]. split; [lia|]. split.
          { rewrite R1. symmetry. apply dropN_app_len. }
          intros c l El'. subst rem'. rewrite R3, lenN_takeN. rewrite E, lenN_app. lia.
    - injection K as <- <-. apply N.ltb_ge in El. exists 0%N. split; [lia|]. split; [rewrite dropN_0; reflexivity|]. intros; lia. }
  mstep Eb as u s2 E2.
  2:{ subst r0. specialize (SK _ _ E2 ltac:(discriminate)). cbv beta iota in SK. eapply cu_le; [|exact SK]. lia. }
  2:{ congruence. }
  specialize (SK _ _ E2 ltac:(discriminate)). cbv beta iota in SK. destruct SK as (d & D1 & D2 & D3).
  assert (C2 : consumed_upto (lenN junk) s s2) by (exists d; auto).
  unfold read_attr_type in Eb. rewrite !bind_assoc in Eb. mstep Eb as c s3 E3.
  2:{ subst r0. apply (cu_le (lenN junk + 1)); [lia|]. eapply cu_trans; [exact C2|].
      unfold parse_u8 in E3. mstep E3 as l s4 E4; try discriminate. injection E3 as <-. apply cu_within. apply (read_exact_mv' 1 _ _ _ E4). discriminate. }
  2:{ congruence. }
  pose proof (parse_u8_bytes _ _ _ E3) as (B3 & _ & T3). fold (rem_of s2) (rem_of s3) in B3.
  specialize (D3 _ _ B3). subst d. rewrite D2, E, dropN_app_len in B3. injection B3 as B3 B4. subst c.
  rewrite type_code_spec, bind_ret, bind_assoc, bind_modify, bind_ret in Eb.
  set (s4 := set_attrs _ s3) in Eb.
  assert (C3 : consumed_upto (lenN junk + 1) s s4).
  { exists (lenN junk + 1)%N. split; [lia|]. change (rem_of s4) with (rem_of s3). rewrite <- B4, E.
    rewrite <- dropN_dropN, dropN_app_len. reflexivity. }
  assert (E4 : rem_of s4 = le_enc 4 len ++ rest) by (symmetry; exact B4).
  replace (lenN junk + 5 + len)%N with (lenN junk + 1 + (4 + len))%N by lia. apply (cu_trans _ _ _ s4); [exact C3|].
  assert (LS : forall ld' : N -> rdprog O, (let* v := load_special ld' in ret (Some v)) s4 = (r0, s1) -> consumed_upto (4 + len) s4 s1).
  { intros ld' K. mstep K as v s5 E5; [injection K as <- <-|subst r0|].
    - eapply load_special_confined; eauto. discriminate.
    - eapply load_special_confined; eauto. discriminate.
    - congruence. }
  destruct Ht; subst t; cbn [load_next_impl] in Eb; eapply LS; exact Eb.
Qed.

Lemma special_at : forall O b (ld : loader O) s n t body rest v s', zlib_roundtrip env -> t = TBinary \/ t = TString ->
  next_at s n (spec_code t :: le_enc 4 (lenN body) ++ body ++ rest) -> (1 <= n)%N -> u_ok 4 (lenN body) ->
  load_next_gen b ld s = (Ok v, s') -> next_at s' (n - 1) rest.
Proof.
  intros O b ld s n t body rest v s' HZ Ht H H1 U HL. pose proof H as (Hh & _ & Hp & _).
  destruct (next_at_load O b ld s n _ _ _ H H1 (type_code_spec _)) as (start & idx & s1 & a1 & T1 & A1 & Y1 & R1 & G).
  assert (P1 : p_attrs s1 = Some a1) by (rewrite T1; reflexivity).
  assert (Ex : exists ld', load_next_impl b t ld start idx s1 = load_special ld' s1).
  { destruct Ht; subst t; eexists; reflexivity. }
  destruct Ex as (ld' & Ex). destruct (load_special ld' s1) as [r s2] eqn:E2. rewrite Ex in G. pose proof (G _ _ eq_refl) as G2.
  assert (LS : r <> Panic -> exists m, (m <= 4 + lenN body)%N /\ amoved (mkAttrs (a_total a1) (a_rest a1) (pos_of s1 + 4 + lenN body)) m s1 s2).
  { intros Hr. eapply load_special_ok; eauto. }
  destruct r as [y|e|].
  - rewrite G2 in HL. injection HL as <- <-. destruct (LS ltac:(discriminate)) as (m & Hm & M).
    refine (amoved_next_at s (n - 1) s1 a1 (le_enc 4 (lenN body) ++ body) rest m s2 Hh Hp T1 A1 Y1 _ _ _).
    + rewrite <- app_assoc. exact R1.
    + rewrite lenN_app, le_enc_lenN. lia.
    + rewrite lenN_app, le_enc_lenN. replace (pos_of s1 + (N.of_nat 4 + lenN body))%N with (pos_of s1 + 4 + lenN body)%N by lia. exact M.
  - destruct (LS ltac:(discriminate)) as (m & Hm & t2 & Mt & ->). pose proof Mt as (Et & _).
    assert (Q : position_of (set_attrs (Some (mkAttrs (a_total a1) (a_rest a1) (pos_of s1 + 4 + lenN body))) t2) <> None)
      by (apply (position_same s); [cbn; rewrite Et, T1; reflexivity|cbn; rewrite Et, T1; reflexivity|exact Hp]).
    match type of Q with position_of ?u <> None => destruct (position_of u) as [q|]; [|tauto] end. destruct (G2 q eq_refl) as (p & G3). rewrite G3 in HL. discriminate.
  - rewrite G2 in HL. discriminate.
Qed.

(** After a successful load, whatever the loader read of the [body], the next attribute is
    the one right after it (seekable or plain reader). *)
Theorem C18_next_attribute : forall O b b' (ld : loader O) s n t body at1 rest v s', zlib_roundtrip env ->
  t = TBinary \/ t = TString -> u_ok 4 (lenN body) -> attr_ok at1 ->
  next_at s n (spec_code t :: le_enc 4 (lenN body) ++ body ++ enc_attr at1 ++ rest) -> (2 <= n)%N ->
  run_op (load_op b ld) s = (Ok (BAttr v), s') ->
  exists s'', run_op (load_op b' direct_loader) s' = (Ok (BAttr (Some (at_val at1))), s'').
Proof.
  intros O b b' ld s n t body at1 rest v s' HZ Ht U Hok H H2 HL. rewrite load_op_run in HL by (eapply next_at_attrs; eauto).
  unfold bind in HL. destruct (load_next_gen b ld s) as [[w|e|] s1] eqn:E1; try discriminate. injection HL as <- <-.
  pose proof (special_at O b ld s n t body _ _ _ HZ Ht H ltac:(lia) U E1) as N1.
  destruct (next_at_direct HZ b' s1 _ at1 rest N1 ltac:(lia) Hok) as (s2 & E2). exists s2.
  rewrite load_op_run by (eapply next_at_attrs; eauto). unfold bind. rewrite E2. reflexivity.
Qed.

(** ** C19: arrays *)

(** The size of the elements of an array type. *)
Definition element_size (t : atype) : option N :=
  match t with
  | TArrBool => Some 1 | TArrI32 | TArrF32 => Some 4 | TArrI64 | TArrF64 => Some 8
  | _ => None
  end%N.

Lemma parse_uint_mv' : forall n, mv (N.of_nat n) (parse_uint n).
Proof.
  intros n. unfold parse_uint. replace (N.of_nat n) with (N.of_nat n + 0)%N by lia.
  apply mv_bind; [apply read_exact_mv'|]. intros l. apply mv_ret.
Qed.

Lemma warn_bool_rd : forall start idx s r s', warn_bool start idx s = (r, s') -> p_rd s' = p_rd s.
Proof.
  intros start idx s r s' H. unfold warn_bool, attr_position, position in H. unfold bind in H.
  destruct (position_of s) as [p|]; cbn in H; [|injection H as <- <-; reflexivity]. unfold warn in H.
  destruct (p_handler s) as [h|]; [destruct (h _)|]; injection H as <- <-; reflexivity.
Qed.

(** The loader's program over the iterator returns the loader's errors as values. *)
Definition noerr {A} (m : M A) : Prop := forall s e s', m s <> (Err e, s').
Lemma ne_ret : forall A (a : A), noerr (ret a). Proof. intros A a s e s' H. discriminate. Qed.
Lemma ne_panic : forall A, noerr (@panic A). Proof. intros A s e s' H. discriminate. Qed.
Lemma ne_bind : forall A B (m : M A) (f : A -> M B), noerr m -> (forall a, noerr (f a)) -> noerr (bind m f).
Proof. intros A B m f H1 H2 s e s' H. mstep H as a s1 E; [exact (H2 _ _ _ _ H)|exact (H1 _ _ _ E)|congruence]. Qed.
Lemma ne_rdop : forall A (f : reader -> option A * reader), noerr (rdop f).
Proof. intros A f s e s' H. unfold rdop in H. destruct (f (p_rd s)) as [[a|] r]; discriminate. Qed.
Lemma ne_run_z : forall A (p : zprog A), noerr (run_z p).
Proof. intros A p. induction p as [a|n k IH|n k IH]; cbn [run_z]; [apply ne_ret| |]; apply ne_bind; auto; apply ne_rdop. Qed.
Lemma ne_it_next : forall A (el : elem A) it, noerr (it_next el it).
Proof.
  intros A el it. unfold it_next. destruct (it_rest it =? 0)%N; [apply ne_ret|]. apply ne_bind.
  - unfold dec_read. destruct (it_dec it) as [|st]; [apply ne_bind; [apply ne_rdop|intros; apply ne_ret]|].
    apply ne_bind; [apply ne_run_z|intros [x y]; apply ne_ret].
  - intros [d [e|bs]]; apply ne_ret.
Qed.
Lemma ne_mloop : forall S R (f : S -> M (S + R)), (forall x, noerr (f x)) -> forall p x, noerr (mloop p f x).
Proof.
  intros S R f H p. induction p as [p IH|p IH|]; intros x; cbn [mloop].
  - apply ne_bind; [apply H|]. intros [x'|v]; [|apply ne_ret]. apply ne_bind; [apply IH|]. intros [x2|v]; [apply IH|apply ne_ret].
  - apply ne_bind; [apply IH|]. intros [x2|v]; [apply IH|apply ne_ret].
  - apply H.
Qed.
Lemma ne_run_seq : forall A O (el : elem A) (p : seqprog A O) it, noerr (run_seq el p it).
Proof.
  intros A O el p. induction p as [r|k IH|k IH]; intros it; cbn [run_seq].
  - apply ne_ret.
  - apply ne_bind; [apply ne_it_next|]. intros [it' o]. apply IH.
  - apply ne_bind; [|intros [it' o]; apply IH]. unfold it_collect. apply ne_bind.
    + apply ne_mloop. intros [i acc]. unfold collect_step. apply ne_bind; [apply ne_it_next|]. intros [i2 [[e|v]|]]; apply ne_ret.
    + intros [x|x]; [apply ne_panic|apply ne_ret].
Qed.

Lemma load_array_direct_confined : forall A O (el : elem A) (ld : N -> seqprog A O) start idx s count len rest r s',
  ready s -> rem_of s = le_enc 4 count ++ le_enc 4 0 ++ le_enc 4 len ++ rest -> u_ok 4 count -> u_ok 4 len ->
  load_array el ld start idx s = (r, s') -> r <> Panic ->
  consumed_upto (12 + N.of_nat (el_size el) * count) s s'.
Proof.
  intros A O el ld start idx s count len rest r s' Hr E U1 U2 H Hp. unfold load_array, read_array_header in H.
  rewrite bind_assoc in H.
  destruct (parse_uint_mv 4 s _ _ Hr E U1) as (s1 & E1 & M1 & R1 & Y1). rewrite (bind_ok _ _ _ _ _ _ _ E1), bind_assoc in H.
  destruct (parse_uint_mv 4 s1 _ _ Y1 R1 ltac:(reflexivity)) as (s2 & E2 & M2 & R2 & Y2). rewrite (bind_ok _ _ _ _ _ _ _ E2) in H.
  cbn [enc_of_u32] in H. rewrite bind_assoc in H.
  destruct (parse_uint_mv 4 s2 _ _ Y2 R2 U2) as (s3 & E3 & M3 & R3 & Y3). rewrite (bind_ok _ _ _ _ _ _ _ E3), bind_ret in H.
  assert (M13 : moved 12 s s3) by (apply (moved_trans 4 8 _ _ _ M1); apply (moved_trans 4 4 _ _ _ M2 M3)).
  apply (cu_trans 12 _ _ s3); [exists 12%N; split; [lia|]; apply moved_rem'; exact M13|].
  mstep H as u s4 E4.
  2:{ exfalso. unfold update_next_attr_start_offset, get_attrs, reader_pos in E4. rewrite bind_gets in E4. unfold bind at 1 in E4. rewrite bind_gets in E4.
      destruct (p_attrs s3); cbn in E4; [|discriminate]. destruct (_ <? _)%N; discriminate. }
  2:{ congruence. }
  assert (R4 : p_rd s4 = p_rd s3).
  { unfold update_next_attr_start_offset, get_attrs, reader_pos in E4. rewrite bind_gets in E4. unfold bind at 1 in E4. rewrite bind_gets in E4.
    destruct (p_attrs s3); cbn in E4; [|discriminate]. destruct (_ <? _)%N; [|discriminate]. injection E4 as <- <-. reflexivity. }
  cbn [mk_decoder] in H. rewrite bind_ret in H.
  assert (C4 : calm s4) by (unfold calm; rewrite R4; apply Y3).
  mstep H as x s5 E5.
  2:{ exfalso. exact (ne_run_seq _ _ _ _ _ _ _ _ E5). }
  2:{ congruence. }
  destruct x as [it v].
  assert (C5 : consumed_upto (N.of_nat (el_size el) * count) s3 s5).
  { destruct (run_seq_dir A O el (ld count) (mkIter DDirect count false false) s4 it v s5 eq_refl C4 E5) as (_ & _ & d & D1 & _ & D2 & _).
    exists d. split; [exact D2|]. rewrite (moved_rem' _ _ _ D1). unfold rem_of. rewrite R4. reflexivity. }
  eapply cu_rd; [|exact C5].
  unfold bind at 1 in H. rewrite lift_res in H. destruct v as [e|v]; cbn [as_res] in H; [injection H as <- <-; reflexivity|].
  mstep H as u2 s6 E6.
  - assert (R6 : p_rd s6 = p_rd s5) by (destruct (it_bad it); [eapply warn_bool_rd; exact E6|injection E6 as <- <-; reflexivity]).
    destruct (it_err it); injection H as <- <-; exact R6.
  - destruct (it_bad it); [eapply warn_bool_rd; exact E6|discriminate].
  - congruence.
Qed.

(** An array stored directly, whose declared byte length covers its elements: whatever the
    loader does, at most the declared bytes are consumed. ([bs] is the attribute and what
    follows it; [13] is the size of the type code and the array header.) *)
Theorem C19_direct_partial : forall O b (ld : loader O) s n t z count len rest x s',
  element_size t = Some z -> (z * count <= len)%N -> u_ok 4 count -> u_ok 4 len ->
  let bs := spec_code t :: le_enc 4 count ++ le_enc 4 0 ++ le_enc 4 len ++ rest in
  next_at s n bs -> (1 <= n)%N ->
  run_op (load_op b ld) s = (x, s') -> x <> Panic ->
  exists d, (d <= 13 + len)%N /\ rem_of s' = dropN d bs.
Proof.
  intros O b ld s n t z count len rest x s' Hz Hc U1 U2 bs H H1 HL Hp. rewrite load_op_run in HL by (eapply next_at_attrs; eauto).
  destruct (next_at_load O b ld s n _ _ _ H H1 (type_code_spec t)) as (start & idx & s1 & a1 & T1 & A1 & Y1 & R1 & G).
  destruct (load_next_impl b t ld start idx s1) as [r s2] eqn:E2. pose proof (G _ _ eq_refl) as G2.
  assert (C : r <> Panic -> consumed_upto (12 + z * count) s1 s2).
  { intros Hr. destruct t; try discriminate; injection Hz as <-; cbn [load_next_impl] in E2;
      eapply load_array_direct_confined in E2; eauto. }
  assert (K : consumed_upto (12 + z * count) s1 s2 -> forall s3, p_rd s3 = p_rd s2 -> exists d, (d <= 13 + len)%N /\ rem_of s3 = dropN d bs).
  { intros (d & D1 & D2) s3 E3. exists (1 + d)%N. split; [lia|]. unfold rem_of in *. rewrite E3, D2, R1. unfold bs.
    rewrite <- dropN_dropN. reflexivity. }
  unfold bind in HL. destruct r as [v|e|].
  - rewrite G2 in HL. injection HL as <- <-. apply K; [apply C; discriminate|reflexivity].
  - assert (Q : position_of s2 = None \/ exists q, position_of s2 = Some q) by (destruct (position_of s2); eauto).
    destruct Q as [Q|[q Q]].
    + exfalso. apply Hp.
      pose proof H as (_ & _ & Hpos & _).
      assert (SS : p_stack s2 = p_stack s /\ p_top s2 = p_top s).
      { pose proof (steps_elim _ _ _ _ _ _ (load_next_impl_quiet _ _ _ _ _ _) E2 ltac:(discriminate)) as SQ.
        destruct SQ as ((_ & _ & Q3 & _ & Q5 & _) & _). rewrite T1 in Q3, Q5. split; assumption. }
      exfalso. revert Q. apply (position_same s); [apply SS|apply SS|exact Hpos].
    + destruct (G2 q Q) as (p & G3). rewrite G3 in HL. injection HL as <- <-. apply K; [apply C; discriminate|reflexivity].
  - rewrite G2 in HL. injection HL as <- <-. congruence.
Qed.

(** The declared byte length of a well-formed array attribute, direct or compressed, covers
    everything a successful load consumes (a special case of [C15_any_loader]). *)
Theorem C19_wellformed_partial : forall O b (ld : loader O) s n at0 rest v s', zlib_roundtrip env -> attr_ok at0 ->
  element_size (aval_type (at_val at0)) <> None ->
  next_at s n (enc_attr at0 ++ rest) -> (1 <= n)%N ->
  run_op (load_op b ld) s = (Ok (BAttr v), s') ->
  exists unread, rem_of s' = unread ++ rest.
Proof.
  intros O b ld s n at0 rest v s' HZ Hok _ H H1 HL. destruct (C15_any_loader O b ld s n at0 rest v s' HZ Hok H H1 HL) as (_ & u & E & _). eauto.
Qed.

(** ** C21: truncated binary and string data *)

(** What [DirectLoader] returns when only [avail] of the [len] declared bytes are there: the
    bytes that are there, as if they were the whole value.  (The property asks for an error:
    see [C21_refuted].) *)
Theorem C21_truncated_partial : forall b s n len avail,
  (lenN avail < len)%N -> u_ok 4 len -> (pos_of s + lenN (rem_of s) <= 2 ^ 63)%N -> (1 <= n)%N ->
  (next_at s n (spec_code TBinary :: le_enc 4 len ++ avail) ->
   fst (run_op (load_op b direct_loader) s) = Ok (BAttr (Some (VBinary avail)))) /\
  (next_at s n (spec_code TString :: le_enc 4 len ++ avail) ->
   if utf8_valid avail then fst (run_op (load_op b direct_loader) s) = Ok (BAttr (Some (VString avail)))
   else exists e, fst (run_op (load_op b direct_loader) s) = Err e).
Proof.
  intros b s n len avail Ha U Hb H1.
  assert (K : forall t (pr : N -> rdprog aval) res, next_at s n (spec_code t :: le_enc 4 len ++ avail) ->
     (forall start idx, load_next_impl b t direct_loader start idx = load_special pr) ->
     (forall s2, ready s2 -> rem_of s2 = avail -> exists s3, run_rd (pr len) len s2 = (Ok res, s3)) ->
     match res with inr v => fst (run_op (load_op b direct_loader) s) = Ok (BAttr (Some v))
                  | inl _ => exists e, fst (run_op (load_op b direct_loader) s) = Err e end).
  { intros t pr res H Hld Hpr. rewrite load_op_run by (eapply next_at_attrs; eauto). pose proof H as (Hh & Hy & Hp & _).
    destruct (next_at_load' aval b direct_loader s n _ _ _ H H1 (type_code_spec t)) as (start & idx & s1 & a1 & T1 & A1 & Y1 & R1 & B1 & G).
    destruct (load_next_impl b t direct_loader start idx s1) as [r s2] eqn:E2. pose proof (G _ _ eq_refl) as G2.
    assert (ER : exists s3, load_special pr s1 = (as_res res, s3)).
    { unfold load_special. destruct (parse_uint_mv 4 s1 _ _ Y1 R1 U) as (s3 & E3 & M3 & R3 & Y3). rewrite (bind_ok _ _ _ _ _ _ _ E3).
      rewrite lenN_app, le_enc_lenN in B1.
      assert (X : (pos_of s3 + len <? pow2_64)%N = true).
      { apply N.ltb_lt. rewrite (moved_pos _ _ _ M3). unfold u_ok in U. change (2 ^ (8 * N.of_nat 4))%N with 4294967296%N in U. change (2 ^ 63)%N with 9223372036854775808%N in Hb.
        change pow2_64 with 18446744073709551616%N. lia. }
      assert (EU : exists a2, update_next_attr_start_offset len s3 = (Ok tt, set_attrs a2 s3)).
      { unfold update_next_attr_start_offset, get_attrs, reader_pos. rewrite bind_gets. unfold bind at 1. rewrite bind_gets.
        rewrite (moved_p_attrs _ _ _ M3), T1. cbn [p_attrs set_attrs ret]. fold (pos_of s3). rewrite X. eexists. reflexivity. }
      destruct EU as (a2 & EU). rewrite (bind_ok _ _ _ _ _ _ _ EU).
      destruct (Hpr (set_attrs a2 s3)) as (s4 & E4); [exact Y3|exact R3|].
      rewrite (bind_ok _ _ _ _ _ _ _ E4). exists s4. apply lift_res. }
    destruct ER as (s3 & ER). rewrite Hld, ER in E2. injection E2 as <- <-.
    unfold bind. destruct res as [e|v]; cbn [as_res] in G2.
    - assert (Q : position_of s3 <> None).
      { assert (E2 : load_next_impl b t direct_loader start idx s1 = (Err e, s3)) by (rewrite Hld; exact ER).
        pose proof (steps_elim _ _ _ _ _ _ (load_next_impl_quiet _ _ _ _ _ _) E2 ltac:(discriminate)) as [SQ _].
        destruct SQ as (Q1 & Q2 & Q3 & Q4 & Q5 & _). rewrite T1 in Q3, Q5. apply (position_same s); assumption. }
      destruct (position_of s3) as [q|]; [|tauto]. destruct (G2 q eq_refl) as (p & ->). eexists. reflexivity.
    - rewrite G2. reflexivity. }
  assert (RT : forall s2, ready s2 -> rem_of s2 = avail -> exists s3, rdop (rd_to_end len) s2 = (Ok (None, avail), s3)).
  { intros s2 [[Hc _] Hr] E. unfold rdop, rd_to_end. unfold rem_of in E.
    destruct (rte_nofail _ (s_rem (r_stream (p_rd s2))) len Hc) as (sc & _ & Ee). rewrite Ee, E.
    assert (ET : takeN len avail = avail) by (rewrite takeN_firstn; apply firstn_all2; unfold lenN in Ha; lia). rewrite ET.
    unfold room in Hr. rewrite E in Hr. unfold advance.
    assert (X : (r_pos (p_rd s2) + lenN avail <? pow2_64)%N = true) by (apply N.ltb_lt; lia). rewrite X. eexists. reflexivity. }
  split; intros H.
  - apply (K TBinary (fun _ => read_all VBinary) (inr (VBinary avail)) H).
    + intros. destruct b; reflexivity.
    + intros s2 Y2 R2. destruct (RT s2 Y2 R2) as (s3 & E3). exists s3. unfold read_all. cbn [run_rd]. unfold reader_pos.
      rewrite bind_gets, (bind_ok _ _ _ _ _ _ _ E3), bind_gets. reflexivity.
  - pose proof (K TString (fun _ => read_all_str VString) (if utf8_valid avail then inr (VString avail) else inl (err_from (EIo IoUtf8))) H) as KK.
    destruct (utf8_valid avail) eqn:Eu; apply KK; try (intros; destruct b; reflexivity);
      intros s2 Y2 R2; destruct (RT s2 Y2 R2) as (s3 & E3); exists s3; unfold read_all_str; cbn [run_rd]; unfold reader_pos;
      rewrite bind_gets, (bind_ok _ _ _ _ _ _ _ E3), bind_gets, Eu; reflexivity.
Qed.

(** ** C42: buffered iteration *)

(** The iterators returned by [iter_buffered] and [into_iter_buffered] call [load_next]; this
    is the same as [load_next_buffered] for loaders that do not distinguish the two. *)
Theorem C42_same_entry_points_partial : forall O (ld : loader O) s,
  (forall len, ld_bin_buf ld len = ld_bin ld len) -> (forall len, ld_str_buf ld len = ld_str ld len) ->
  iter_next_buffered (Some ld) s =
  match load_next_buffered ld s with
  | (Ok None, s') => (Ok None, s')
  | (Ok (Some v), s') => (Ok (Some (inr v)), s')
  | (Err e, s') => (Ok (Some (inl e)), s')
  | (Panic, s') => (Panic, s')
  end.
Proof.
  intros O ld s HB HS.
  assert (I : forall t x y s1, load_next_impl true t ld x y s1 = load_next_impl false t ld x y s1).
  { intros t x y s1. destruct t; try reflexivity; cbn [load_next_impl]; unfold load_special, bind;
      destruct (parse_uint 4 s1) as [[l|e|] s2]; try reflexivity;
      destruct (update_next_attr_start_offset l s2) as [[l'|e|] s3]; try reflexivity; rewrite ?HB, ?HS; reflexivity. }
  assert (E : load_next_buffered ld s = load_next ld s).
  { unfold load_next_buffered, load_next, load_next_gen, do_with_health_check, bind, try_.
    destruct (ensure_continuable s) as [[u|e|] s1]; try reflexivity. destruct (get_attrs s1) as [[a|e|] s2]; try reflexivity.
    destruct (read_next_attr_type s2) as [[[t|]|e|] s3]; try reflexivity. rewrite I. reflexivity. }
  rewrite E. unfold iter_next_buffered, bind, try_. destruct (load_next ld s) as [[[v|]|e|] s']; reflexivity.
Qed.

(** ** C43: size hints *)

(** All the items an attribute iterator yields, given the loaders it is constructed with. *)
Fixpoint iter_all {O} (lds : list (loader O)) : M (list (perr + O)) :=
  match lds with
  | [] => ret []
  | l :: t =>
      let* x := iter_next (Some l) in
      match x with
      | None => ret []
      | Some v => let* r := iter_all t in ret (v :: r)
      end
  end.

Lemma iter_all_stuck : forall O (lds : list (loader O)) s items s', p_health s <> Running ->
  iter_all lds s = (Ok items, s') -> length items = length lds.
Proof.
  intros O lds. induction lds as [|l t IH]; intros s items s' Hh H; cbn [iter_all] in H; [injection H as <- <-; reflexivity|].
  unfold bind at 1 in H. cbn [iter_next] in H. unfold bind at 1, try_ in H.
  destruct (load_next l s) as [r s1] eqn:E. destruct r as [v|e|].
  - exfalso. apply load_next_shape in E; [|discriminate]. destruct (p_health s); [tauto| |]; destruct E as [_ E]; discriminate.
  - pose proof E as E'. apply load_next_shape in E'; [|discriminate]. assert (s1 = s) as -> by (destruct (p_health s); [tauto| |]; apply E').
    cbn [ret] in H. mstep H as r2 s2 E2; try discriminate. injection H as <- <-. cbn. f_equal. eapply IH; eauto.
  - discriminate.
Qed.

Lemma iter_all_count : forall O (lds : list (loader O)) s a items s', p_health s = Running -> p_attrs s = Some a ->
  iter_all lds s = (Ok items, s') ->
  (N.min (a_rest a) (lenN lds) <= lenN items)%N /\ (lenN items <= lenN lds)%N /\
  (Forall (fun x => match x with inr _ => True | inl _ => False end) items -> (lenN items <= a_rest a)%N).
Proof.
  intros O lds. induction lds as [|l t IH]; intros s a items s' Hh Ha H; cbn [iter_all] in H.
  - injection H as <- <-. change (lenN (@nil (loader O))) with 0%N. change (lenN (@nil (perr + O))) with 0%N. split; [lia|]. split; [lia|]. intros; lia.
  - unfold bind at 1 in H. cbn [iter_next] in H. unfold bind at 1, try_ in H.
    destruct (load_next l s) as [r s1] eqn:E. destruct r as [v|e|]; [| |discriminate].
    + pose proof E as E'. apply load_next_shape in E'; [|discriminate]. rewrite Hh in E'.
      destruct E' as (a0 & Ea & r1 & s2 & Eb & _ & -> & ->). rewrite Ha in Ea. injection Ea as <-.
      pose proof (load_body_quietl _ _ _ _ _ _ _ _ Eb ltac:(discriminate)) as [(_ & Q & _) _].
      eapply load_body_counts in Eb; [|exact Ha]. destruct v as [v|].
      * destruct Eb as (B1 & a1 & B2 & B3 & B4). cbn [ret] in H. mstep H as r2 s3 E2; try discriminate. injection H as <- <-.
        destruct (IH s2 a1 r2 s3 ltac:(congruence) B2 E2) as (I1 & I2 & I3). rewrite !lenN_cons. split; [lia|]. split; [lia|].
        intros F. inversion F; subst. specialize (I3 ltac:(assumption)). lia.
      * destruct Eb as (B1 & ->). cbn in H. injection H as <- <-. rewrite !lenN_cons. change (lenN (@nil (perr + O))) with 0%N. split; [lia|]. split; [lia|]. intros; lia.
    + pose proof E as E'. apply load_next_shape in E'; [|discriminate]. rewrite Hh in E'.
      destruct E' as (a0 & _ & r1 & s2 & _ & _ & e0 & p0 & _ & _ & Es & _).
      cbn [ret] in H. mstep H as r2 s3 E2; try discriminate. injection H as <- <-.
      apply iter_all_stuck in E2; [|rewrite Es; discriminate]. unfold lenN. cbn [length]. rewrite E2. split; [lia|]. split; [lia|].
      intros F. inversion F; tauto.
Qed.

(** The hint is a range of [usize]s; its lower bound always holds; its upper bound holds when no load fails.  [lmin],
    [lmax] is the (correct) hint of the loaders iterator, 2^64 - 1 the largest [usize].  (The
    property's upper bound fails after an error: [C43_refuted].) *)
Theorem C43_size_hint_partial : forall O (lds : list (loader O)) s a items s' lmin lmax,
  p_health s = Running -> p_attrs s = Some a -> (a_rest a < 2 ^ 64)%N ->
  (lmin <= lenN lds)%N -> (forall m, lmax = Some m -> lenN lds <= m)%N ->
  iter_all lds s = (Ok items, s') ->
  let '(lo, hi) := size_hint (a_rest a) lmin lmax in
  (lo <= hi)%N /\ (hi < 2 ^ 64)%N /\
  (lo <= lenN items)%N /\
  (Forall (fun x => match x with inr _ => True | inl _ => False end) items -> lenN items <= hi)%N.
Proof.
  intros O lds s a items s' lmin lmax Hh Ha Hb H1 H2 H. destruct (iter_all_count O lds s a items s' Hh Ha H) as (I1 & I2 & I3).
  change pow2_64 with (2 ^ 64)%N. change (2 ^ 64)%N with 18446744073709551616%N in *.
  unfold size_hint. change pow2_64 with 18446744073709551616%N. split; [|split; [|split]].
  1-2: destruct lmax as [m|]; [specialize (H2 m eq_refl); lia|lia].
  { lia. } intros F. specialize (I3 F). destruct lmax as [m|]; [specialize (H2 m eq_refl); lia|].
  lia.
Qed.

End WithEnv.

(** ** Concrete cases *)

(** A node "A" (version 7400) at offset 27 with the given number and bytes of attributes. *)
Definition one_node (count : N) (attrs tail : list byte) : list byte :=
  magic ++ le_enc 4 7400 ++
  le_enc 4 (27 + 13 + 1 + lenN attrs) ++ le_enc 4 count ++ le_enc 4 (lenN attrs) ++ [x01] ++ s_a ++ attrs ++ tail.

(** The state after the [StartNode] of such a node is one in which attributes can be loaded:
    the hypotheses of C15, C17, C18, C19, C21. *)
Definition mixed_attrs : list attr :=
  [mkAttr (VI32 (-5)) false; mkAttr (VString s_hi) false; mkAttr (VArrI32 [1; -2; 3]%Z) true; mkAttr (VArrBool [true; false]) false; mkAttr (VF64 9221120237041090561) false].
Definition mixed_doc : list byte := one_node 5 (enc_attrs (env:=release) mixed_attrs) (zeros 30).
Example mixed_ok : Forall (attr_ok (env:=release)) mixed_attrs.
Proof. repeat constructor; vm_compute; intuition congruence. Qed.
Example mixed_next_at : exists p rs s, opened mixed_doc [] [] true None p /\
  run_ops (env:=release) [@ONext aval] p = (rs, s) /\
  next_at s 5 (enc_attrs (env:=release) mixed_attrs ++ zeros 30).
Proof.
  unfold opened. do 3 eexists. split; [eexists; split; [vm_compute; reflexivity|reflexivity]|]. split; [vm_compute; reflexivity|].
  split; [reflexivity|]. split; [split; [split; reflexivity|vm_compute; reflexivity]|]. split; [vm_compute; discriminate|].
  do 2 eexists. split; [reflexivity|]. split; [reflexivity|]. split; [instantiate (1 := []); vm_compute; reflexivity|]. vm_compute. reflexivity.
Qed.
(** The same loads on the sample, by computation, through a reader delivering one byte at a
    time. *)
Example mixed_loads : exists s,
  run_from release mixed_doc (repeat (AChunk 1) 200) true (ONext :: repeat ld 6) = Some
    (Ok (BEvent (EvStart s_a)) :: map (fun a => Ok (BAttr (Some (at_val a)))) mixed_attrs ++ [Ok (BAttr None)], s).
Proof. eexists. vm_compute. reflexivity. Qed.

(** C17: an incorrect boolean byte 0x03 decodes to true, with a warning. *)
Example bool_example : exists p rs s, opened (one_node 1 [x43; x03] (zeros 30)) [] [] true None p /\
  run_ops (env:=release) [ONext; ld] p = (rs, s) /\
  rs = [Ok (BEvent (EvStart s_a)); Ok (BAttr (Some (VBool true)))] /\
  map fst (p_log s) = [IncorrectBooleanRepresentation].
Proof.
  unfold opened. do 3 eexists. split; [eexists; split; [vm_compute; reflexivity|reflexivity]|]. split; [vm_compute; reflexivity|].
  split; reflexivity.
Qed.
Example bool_array_example : exists p rs s,
  opened (one_node 1 ([x62] ++ le_enc 4 3 ++ le_enc 4 0 ++ le_enc 4 3 ++ [x59; x01; x54]) (zeros 30)) [] [] true None p /\
  run_ops (env:=release) [ONext; ld] p = (rs, s) /\
  rs = [Ok (BEvent (EvStart s_a)); Ok (BAttr (Some (VArrBool [true; true; false])))] /\
  map fst (p_log s) = [IncorrectBooleanRepresentation].
Proof.
  unfold opened. do 3 eexists. split; [eexists; split; [vm_compute; reflexivity|reflexivity]|]. split; [vm_compute; reflexivity|].
  split; reflexivity.
Qed.

(** C18: a type loader reads nothing of a string; the next attribute is still found. *)
Example special_example : exists p rs s,
  opened (one_node 2 (enc_attrs (env:=release) [mkAttr (VString s_hi) false; mkAttr (VI16 7) false]) (zeros 30)) [] [] false None p /\
  run_ops (env:=release) [ONext; OLoad type_loader; OLoad type_loader] p = (rs, s) /\
  rs = [Ok (BEvent (EvStart s_a)); Ok (BAttr (Some TString)); Ok (BAttr (Some TI16))].
Proof.
  unfold opened. do 3 eexists. split; [eexists; split; [vm_compute; reflexivity|reflexivity]|]. split; [vm_compute; reflexivity|]. reflexivity.
Qed.

(** C19: an array declares 2 elements of 4 bytes but a byte length of 4: loading it returns 2
    elements and consumes 4 bytes more than declared (the declared bytes end at offset 58). *)
Definition short_array : list byte :=
  one_node 1 ([x69] ++ le_enc 4 2 ++ le_enc 4 0 ++ le_enc 4 4 ++ le_enc 4 1) (le_enc 4 2 ++ zeros 30).
Theorem C19_refuted : exists p rs s, opened short_array [] [] true None p /\
  run_ops (env:=release) [ONext; ld] p = (rs, s) /\
  rs = [Ok (BEvent (EvStart s_a)); Ok (BAttr (Some (VArrI32 [1; 2]%Z)))] /\
  pos_of s = 62%N /\ (27 + 13 + 1 + (13 + 4))%N = 58%N.
Proof.
  unfold opened. do 3 eexists. split; [eexists; split; [vm_compute; reflexivity|reflexivity]|]. split; [vm_compute; reflexivity|].
  split; [reflexivity|]. split; reflexivity.
Qed.

(** C21: a binary attribute declaring 10 bytes of which 3 exist is loaded as 3 bytes. *)
Definition short_binary : list byte := one_node 1 ([x52] ++ le_enc 4 10 ++ [x01; x02; x03]) [].
Theorem C21_refuted : exists p rs s, opened short_binary [] [] true None p /\
  run_ops (env:=release) [ONext; ld] p = (rs, s) /\
  rs = [Ok (BEvent (EvStart s_a)); Ok (BAttr (Some (VBinary [x01; x02; x03])))].
Proof.
  unfold opened. do 3 eexists. split; [eexists; split; [vm_compute; reflexivity|reflexivity]|]. split; [vm_compute; reflexivity|]. reflexivity.
Qed.

(** C42: a loader that tells which of its entry points was called. *)
Definition spy_loader : loader bool :=
  mkLoader (fun _ => inr false) (fun _ => inr false) (fun _ => inr false) (fun _ => inr false) (fun _ => inr false) (fun _ => inr false)
    (fun _ => SRet (inr false)) (fun _ => SRet (inr false)) (fun _ => SRet (inr false)) (fun _ => SRet (inr false)) (fun _ => SRet (inr false))
    (fun _ => RRet (inr false)) (fun _ => RRet (inr false)) (fun _ => RRet (inr true)) (fun _ => RRet (inr true)).
Theorem C42_refuted : exists p rs s, opened (one_node 1 (enc_attrs (env:=release) [mkAttr (VBinary s_hi) false]) (zeros 30)) [] [] true None p /\
  run_ops (env:=release) [@ONext bool] p = (rs, s) /\
  fst (iter_next_buffered (env:=release) (Some spy_loader) s) = Ok (Some (inr false)) /\
  fst (load_next_buffered (env:=release) spy_loader s) = Ok (Some true).
Proof.
  unfold opened. do 3 eexists. split; [eexists; split; [vm_compute; reflexivity|reflexivity]|]. split; [vm_compute; reflexivity|].
  split; vm_compute; reflexivity.
Qed.

(** C43: one attribute with an invalid type code, three loaders: the hint says at most one
    item, the iterator yields three. *)
Theorem C43_refuted : exists p rs s a items s', opened (one_node 1 [x00] (zeros 30)) [] [] true None p /\
  run_ops (env:=release) [@ONext aval] p = (rs, s) /\ p_attrs s = Some a /\
  size_hint (a_rest a) 3 (Some 3%N) = (1%N, 1%N) /\
  iter_all (env:=release) [direct_loader; direct_loader; direct_loader] s = (Ok items, s') /\ length items = 3%nat.
Proof.
  unfold opened. do 6 eexists. split; [eexists; split; [vm_compute; reflexivity|reflexivity]|]. split; [vm_compute; reflexivity|].
  split; [reflexivity|]. split; [reflexivity|]. split; [vm_compute; reflexivity|]. reflexivity.
Qed.

(** C19: an uncompressed array of 2 elements in 10 bytes, and a compressed array, are ready to be
    loaded; the first load takes 8 bytes of the 10. *)
Example long_array_ex : exists p rs s x s',
  let bs := [x69] ++ le_enc 4 2 ++ le_enc 4 0 ++ le_enc 4 10 ++ zeros 10 in
  opened (one_node 1 bs (zeros 30)) [] [] true None p /\
  run_ops (env:=release) [@ONext aval] p = (rs, s) /\
  element_size TArrI32 = Some 4%N /\ (4 * 2 <= 10)%N /\ u_ok 4 2 /\ u_ok 4 10 /\
  next_at s 1 (bs ++ zeros 30) /\
  run_op (env:=release) ld s = (x, s') /\ x = Ok (BAttr (Some (VArrI32 [0; 0]%Z))) /\ rem_of s' = zeros 32.
Proof.
  unfold opened. do 5 eexists. split; [eexists; split; [vm_compute; reflexivity|reflexivity]|]. split; [vm_compute; reflexivity|].
  split; [reflexivity|]. split; [vm_compute; discriminate|]. split; [vm_compute; reflexivity|]. split; [vm_compute; reflexivity|]. split.
  { split; [reflexivity|]. split; [split; [split; reflexivity|vm_compute; reflexivity]|]. split; [vm_compute; discriminate|].
    do 2 eexists. split; [reflexivity|]. split; [reflexivity|]. split; [instantiate (1 := []); vm_compute; reflexivity|]. vm_compute. reflexivity. }
  split; [vm_compute; reflexivity|]. split; reflexivity.
Qed.
Example array_ex : exists p rs s v s',
  let at0 := mkAttr (VArrI32 [1; -2; 3]%Z) true in
  zlib_roundtrip release /\ attr_ok (env:=release) at0 /\ element_size (aval_type (at_val at0)) <> None /\
  opened (one_node 1 (enc_attr (env:=release) at0) (zeros 30)) [] [] true None p /\
  run_ops (env:=release) [@ONext aval] p = (rs, s) /\
  next_at s 1 (enc_attr (env:=release) at0 ++ zeros 30) /\
  run_op (env:=release) ld s = (Ok (BAttr v), s').
Proof.
  unfold opened. do 5 eexists. split; [apply stored_roundtrip|].
  split; [exact (proj1 (Forall_forall _ _) mixed_ok _ (or_intror (or_intror (or_introl eq_refl))))|]. split; [discriminate|].
  split; [eexists; split; [vm_compute; reflexivity|reflexivity]|]. split; [vm_compute; reflexivity|]. split; [|vm_compute; reflexivity].
  split; [reflexivity|]. split; [split; [split; reflexivity|vm_compute; reflexivity]|]. split; [vm_compute; discriminate|].
  do 2 eexists. split; [reflexivity|]. split; [reflexivity|]. split; [instantiate (1 := []); vm_compute; reflexivity|]. vm_compute. reflexivity.
Qed.

(** C21: a string declared with 5 bytes of which 2 are there. *)
Example short_string_ex : exists p rs s, opened (one_node 1 ([x53] ++ le_enc 4 5 ++ s_hi) []) [] [] true None p /\
  run_ops (env:=release) [@ONext aval] p = (rs, s) /\ (lenN s_hi < 5)%N /\ u_ok 4 5 /\ (pos_of s + lenN (rem_of s) <= 2 ^ 63)%N /\
  next_at s 1 (spec_code TString :: le_enc 4 5 ++ s_hi).
Proof.
  unfold opened. do 3 eexists. split; [eexists; split; [vm_compute; reflexivity|reflexivity]|]. split; [vm_compute; reflexivity|].
  split; [vm_compute; reflexivity|]. split; [vm_compute; reflexivity|]. split; [vm_compute; discriminate|].
  split; [reflexivity|]. split; [split; [split; reflexivity|vm_compute; reflexivity]|]. split; [vm_compute; discriminate|].
  do 2 eexists. split; [reflexivity|]. split; [reflexivity|]. split; [instantiate (1 := []); vm_compute; reflexivity|]. vm_compute. reflexivity.
Qed.

(** C42: the loader of all values has the same two entry points. *)
Example direct_entry_points : (forall len, ld_bin_buf direct_loader len = ld_bin direct_loader len) /\
  (forall len, ld_str_buf direct_loader len = ld_str direct_loader len).
Proof. split; reflexivity. Qed.

(** C43: two loaders on the five attributes; the hint says two items, and two there are. *)
Example size_hint_ex : exists p rs s a items s', opened mixed_doc [] [] true None p /\
  run_ops (env:=release) [@ONext aval] p = (rs, s) /\ p_health s = Running /\ p_attrs s = Some a /\ (a_rest a < 2 ^ 64)%N /\
  iter_all (env:=release) [direct_loader; direct_loader] s = (Ok items, s') /\
  items = [inr (VI32 (-5)); inr (VString s_hi)] /\ size_hint (a_rest a) 2 (Some 2%N) = (2%N, 2%N).
Proof.
  unfold opened. do 6 eexists. split; [eexists; split; [vm_compute; reflexivity|reflexivity]|]. split; [vm_compute; reflexivity|].
  split; [reflexivity|]. split; [reflexivity|]. split; [vm_compute; reflexivity|]. split; [vm_compute; reflexivity|]. split; reflexivity.
Qed.

Print Assumptions C15_load_all.
Print Assumptions C15_any_loader.
Print Assumptions C17_boolean.
Print Assumptions C17_boolean_array.
Print Assumptions C18_confined.
Print Assumptions C18_next_attribute.
Print Assumptions C19_direct_partial.
Print Assumptions C19_wellformed_partial.
Print Assumptions C19_refuted.
Print Assumptions C21_truncated_partial.
Print Assumptions C21_refuted.
Print Assumptions C42_same_entry_points_partial.
Print Assumptions C42_refuted.
Print Assumptions C43_size_hint_partial.
Print Assumptions C43_refuted.
