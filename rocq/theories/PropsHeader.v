(** C01, C02, C14, C41: header, versions, codes, getters. *)
Require Import Coq.Lists.List Coq.NArith.NArith Coq.ZArith.ZArith Coq.Bool.Bool Coq.micromega.Lia.
Require Import ZifyBool ZifyNat ZifyN.
Require Import Coq.Init.Byte.
Require Import Verif.Base Verif.BaseFacts Verif.Utf8 Verif.Types Verif.Values Verif.Io Verif.IoFacts Verif.Parser Verif.MonadFacts Verif.ReadFacts Verif.Spec Verif.Zlib Verif.Samples.
Import ListNotations.
Ltac Zify.zify_post_hook ::= Z.div_mod_to_equations.

Lemma magic_is_spec : magic = spec_magic.
Proof. reflexivity. Qed.

Lemma st_read_exact_nofail : forall n s, nofail (s_sched s) = true ->
  exists sc', nofail sc' = true /\
  st_read_exact n s =
    if Nat.leb n (length (s_rem s))
    then (inr (firstn n (s_rem s)), mkStream (skipn n (s_rem s)) (s_off s + N.of_nat n) sc' (s_seeks s))
    else (inl IoEof, mkStream [] (s_off s + lenN (s_rem s)) sc' (s_seeks s)).
Proof.
  intros n s H. unfold st_read_exact. destruct (rx_nofail _ (s_rem s) n H) as (sc' & Hf & E).
  exists sc'. split; [exact Hf|]. rewrite E. destruct (Nat.leb n (length (s_rem s))) eqn:L; [|reflexivity].
  apply Nat.leb_le in L. unfold lenN. rewrite firstn_length_le by exact L. reflexivity.
Qed.

Lemma header_load_nofail : forall s, nofail (s_sched s) = true ->
  exists sc', nofail sc' = true /\
  header_load s =
    if Nat.leb 23 (length (s_rem s)) then
      if bytes_eqb (firstn 23 (s_rem s)) magic then
        if Nat.leb 27 (length (s_rem s))
        then (Ok (le_dec (firstn 4 (skipn 23 (s_rem s)))),
              mkStream (skipn 27 (s_rem s)) (s_off s + 27) sc' (s_seeks s))
        else (Err (HeaderIo IoEof), mkStream [] (s_off s + lenN (s_rem s)) sc' (s_seeks s))
      else (Err MagicNotDetected, mkStream (skipn 23 (s_rem s)) (s_off s + 23) sc' (s_seeks s))
    else (Err (HeaderIo IoEof), mkStream [] (s_off s + lenN (s_rem s)) sc' (s_seeks s)).
Proof.
  intros s H. unfold header_load.
  destruct (st_read_exact_nofail 23 s H) as (sc1 & Hf1 & E1). rewrite E1.
  destruct (Nat.leb 23 (length (s_rem s))) eqn:L1; [|exists sc1; auto].
  apply Nat.leb_le in L1.
  destruct (bytes_eqb (firstn 23 (s_rem s)) magic); [|exists sc1; auto].
  set (s1 := mkStream (skipn 23 (s_rem s)) (s_off s + N.of_nat 23) sc1 (s_seeks s)).
  destruct (st_read_exact_nofail 4 s1 Hf1) as (sc2 & Hf2 & E2). exists sc2. split; [exact Hf2|].
  rewrite E2. unfold s1. cbn [s_rem s_off s_seeks s_sched]. rewrite skipn_length.
  destruct (Nat.leb 4 (length (s_rem s) - 23)) eqn:L2; destruct (Nat.leb 27 (length (s_rem s))) eqn:L3;
    try (apply Nat.leb_le in L2); try (apply Nat.leb_gt in L2); try (apply Nat.leb_le in L3); try (apply Nat.leb_gt in L3); try lia.
  - rewrite skipn_skipn_add. do 2 f_equal. lia.
  - do 2 f_equal. unfold lenN. rewrite skipn_length. lia.
Qed.

(** ** C01 *)

(** What [FbxHeader::load] must do on the bytes [data]: the result and the number of bytes
    consumed. *)
Inductive header_spec (data : list byte) : res header_error N -> N -> Prop :=
| HS_ok : forall b0 b1 b2 b3 rest, data = spec_magic ++ b0 :: b1 :: b2 :: b3 :: rest ->
    header_spec data (Ok (bN b0 + 256 * bN b1 + 65536 * bN b2 + 16777216 * bN b3)%N) 27
| HS_bad_magic : forall m rest, data = m ++ rest -> length m = 23%nat -> m <> spec_magic ->
    header_spec data (Err MagicNotDetected) 23
| HS_short : forall d, (length data < 23)%nat -> (d <= lenN data)%N -> header_spec data (Err (HeaderIo IoEof)) d
| HS_short_version : forall v d, data = spec_magic ++ v -> (length v < 4)%nat -> (d <= lenN data)%N ->
    header_spec data (Err (HeaderIo IoEof)) d.

(** For all contents and all ways of delivering them without failure, the result is the
    specified one, and the stream is left after the bytes consumed. *)
Theorem C01_header_load : forall data off sched seeks, nofail sched = true ->
  exists r d s', header_load (mkStream data off sched seeks) = (r, s') /\
    header_spec data r d /\ s_off s' = (off + d)%N /\ s_rem s' = skipn (N.to_nat d) data.
Proof.
  intros data off sched seeks H.
  destruct (header_load_nofail (mkStream data off sched seeks) H) as (sc' & _ & E). rewrite E. clear E.
  cbn [s_rem s_off s_seeks].
  destruct (Nat.leb 23 (length data)) eqn:L1.
  - apply Nat.leb_le in L1. assert (Hs := firstn_skipn 23 data).
    destruct (bytes_eqb (firstn 23 data) magic) eqn:Em.
    + apply bytes_eqb_eq in Em. rewrite magic_is_spec in Em. destruct (Nat.leb 27 (length data)) eqn:L2.
      * apply Nat.leb_le in L2.
        destruct (skipn 23 data) as [|b0 [|b1 [|b2 [|b3 rest]]]] eqn:Es;
          try (exfalso; apply (f_equal (@length byte)) in Es; rewrite skipn_length in Es; cbn in Es; lia).
        do 3 eexists. split; [reflexivity|]. split; [|split; reflexivity].
        replace (le_dec (firstn 4 (b0 :: b1 :: b2 :: b3 :: rest))) with (bN b0 + 256 * bN b1 + 65536 * bN b2 + 16777216 * bN b3)%N
          by (cbn [firstn le_dec]; lia).
        apply HS_ok with rest. rewrite <- Em, <- Es. rewrite Es. exact (eq_sym Hs).
      * apply Nat.leb_gt in L2. do 3 eexists. split; [reflexivity|]. split; [|split; [reflexivity|]].
        -- apply HS_short_version with (skipn 23 data); [rewrite <- Em; auto | rewrite skipn_length; lia | apply N.le_refl].
        -- cbn. unfold lenN. rewrite Nnat.Nat2N.id, skipn_all. reflexivity.
    + do 3 eexists. split; [reflexivity|]. split; [|split; reflexivity].
      apply HS_bad_magic with (firstn 23 data) (skipn 23 data).
      * auto.
      * apply firstn_length_le. exact L1.
      * intros E. rewrite <- magic_is_spec in E. rewrite E, bytes_eqb_refl in Em. discriminate.
  - apply Nat.leb_gt in L1. do 3 eexists. split; [reflexivity|]. split; [|split; [reflexivity|]].
    + apply HS_short; [exact L1 | apply N.le_refl].
    + cbn. unfold lenN. rewrite Nnat.Nat2N.id, skipn_all. reflexivity.
Qed.

(** The specification leaves no choice: together with [C01_header_load], success happens
    exactly on the streams that start with the magic and four more bytes. *)
Theorem C01_header_spec_exclusive : forall data r1 d1 r2 d2,
  header_spec data r1 d1 -> header_spec data r2 d2 -> r1 = r2.
Proof.
  intros data r1 d1 r2 d2 H1 H2.
  assert (Lm : length spec_magic = 23%nat) by reflexivity.
  assert (F : forall x y, data = x ++ y -> length x = 23%nat -> x = firstn 23 data).
  { intros x y -> L. rewrite firstn_app, L, Nat.sub_diag, <- L, firstn_all. cbn. rewrite app_nil_r. reflexivity. }
  destruct H1 as [b0 b1 b2 b3 rest H1|m rest H1 L1 N1|d L1 _|v d H1 L1 _];
  destruct H2 as [c0 c1 c2 c3 rest' H2|m' rest' H2 L2 N2|d' L2 _|v' d' H2 L2 _]; try reflexivity;
  try (exfalso; apply (f_equal (@length byte)) in H1; rewrite !app_length in H1; cbn in *; lia);
  try (exfalso; apply (f_equal (@length byte)) in H2; rewrite !app_length in H2; cbn in *; lia);
  try (exfalso; rewrite (F _ _ H1 L1) in N1; rewrite (F _ _ H2 Lm) in N1; congruence);
  try (exfalso; rewrite (F _ _ H2 L2) in N2; rewrite (F _ _ H1 Lm) in N2; congruence).
  - rewrite H1 in H2. apply app_inv_head in H2. congruence.
  - exfalso. rewrite H1 in H2. apply app_inv_head in H2. subst v'. cbn in L2. lia.
  - exfalso. rewrite H1 in H2. apply app_inv_head in H2. subst v. cbn in L1. lia.
Qed.

(** Success is sound even if some reads fail. *)
Theorem C01_header_load_any_schedule : forall data off sched seeks v s',
  header_load (mkStream data off sched seeks) = (Ok v, s') ->
  header_spec data (Ok v) 27 /\ s_off s' = (off + 27)%N /\ s_rem s' = skipn 27 data.
Proof.
  intros data off sched seeks v s' H. unfold header_load, st_read_exact in H. cbn [s_sched s_rem s_off s_seeks] in H.
  destruct (rx sched data 23) as [[[e1 g1] r1] sc1] eqn:E1. apply rx_gen in E1.
  destruct E1 as (D1 & _ & G1 & _). destruct e1 as [e1|]; [discriminate|]. specialize (G1 eq_refl).
  destruct (bytes_eqb g1 magic) eqn:Em; [|discriminate]. apply bytes_eqb_eq in Em. rewrite magic_is_spec in Em.
  cbn [s_sched s_rem s_off s_seeks] in H.
  destruct (rx sc1 r1 4) as [[[e2 g2] r2] sc2] eqn:E2. apply rx_gen in E2.
  destruct E2 as (D2 & _ & G2 & _). destruct e2 as [e2|]; [discriminate|]. specialize (G2 eq_refl).
  set (x := le_dec g2) in H. injection H as <- <-. subst x.
  destruct g2 as [|b0 [|b1 [|b2 [|b3 [|]]]]]; try discriminate.
  cbn [s_off s_rem]. split; [|split].
  - replace (le_dec [b0; b1; b2; b3]) with (bN b0 + 256 * bN b1 + 65536 * bN b2 + 16777216 * bN b3)%N
      by (cbn [le_dec]; lia).
    apply HS_ok with r2. rewrite D1, D2, Em. reflexivity.
  - unfold lenN. rewrite G1. cbn. lia.
  - rewrite D1, D2, Em. reflexivity.
Qed.

Example C01_ex : exists s', header_load (mkStream (sample_doc 7400) 0 [AChunk 3; AIntr; AChunk 1] []) = (Ok 7400%N, s').
Proof. eexists. vm_compute. reflexivity. Qed.
Example C01_ex_bad : exists s', header_load (mkStream (zeros 30) 0 [] []) = (Err MagicNotDetected, s').
Proof. eexists. vm_compute. reflexivity. Qed.
Example C01_ex_short : exists s', header_load (mkStream (firstn 25 (sample_doc 7400)) 0 [] []) = (Err (HeaderIo IoEof), s').
Proof. eexists. vm_compute. reflexivity. Qed.

(** ** C02 *)

(** Creation from any stream: it never panics; if the header loads, it succeeds exactly for
    versions 7000 to 7999 and reports the version otherwise; a failing header is reported.
    The new parser has that version and is at offset 27 with no open node. *)
Theorem C02_parser_creation : forall s seekable,
  match header_load s with
  | (Ok v, s') =>
      if ((7000 <=? v) && (v <=? 7999))%N
      then exists p, any_parser s seekable = Ok p /\ p_ver p = v /\
             position_of p = Some (mkPos 27 0 [] None) /\ depth p = 0%N /\
             r_stream (p_rd p) = s' /\ r_seekable (p_rd p) = seekable
      else any_parser s seekable = Err (AnyUnsupportedVersion v)
  | (Err e, _) => any_parser s seekable = Err (AnyHeader e)
  | (Panic, _) => False
  end.
Proof.
  intros s seekable. unfold any_parser, parser_create, ver_supported.
  destruct (header_load s) as [[v|e|] s'] eqn:E; [|reflexivity|].
  - destruct ((7000 <=? v) && (v <=? 7999))%N; [|reflexivity]. eexists. split; [reflexivity|]. cbn. auto.
  - unfold header_load in E. destruct (st_read_exact 23 s) as [[e|m] s1]; [discriminate|].
    destruct (bytes_eqb m magic); [|discriminate]. destruct (st_read_exact 4 s1) as [[e|w] s2]; discriminate.
Qed.

(** The internal panic ("should never fail") is unreachable. *)
Theorem C02_never_panics : forall s seekable, any_parser s seekable <> Panic.
Proof.
  intros s seekable E. pose proof (C02_parser_creation s seekable) as H.
  destruct (header_load s) as [[v|e|] s']; [|congruence|exact H].
  destruct ((7000 <=? v) && (v <=? 7999))%N; [destruct H as (p & H & _)|]; congruence.
Qed.

(** [v7400::Parser] creation agrees. *)
Theorem C02_parser_create : forall v s pos seekable,
  (exists p, parser_create v s pos seekable = Ok p) <-> (7000 <= v <= 7999)%N.
Proof.
  intros v s pos seekable. unfold parser_create, ver_supported. destruct ((7000 <=? v) && (v <=? 7999))%N eqn:E.
  - split; [lia|]. intros _. eexists; reflexivity.
  - split; [intros [p [=]]|]. lia.
Qed.

Example C02_ex : exists p, any_parser (mkStream (sample_doc 7400) 0 [] []) true = Ok p.
Proof. eexists. vm_compute. reflexivity. Qed.
Example C02_ex_old : any_parser (mkStream (sample_doc 6999) 0 [] []) true = Err (AnyUnsupportedVersion 6999).
Proof. vm_compute. reflexivity. Qed.

(** ** C14 *)

(** The parser's decoding of a type code is the inverse of the table of the format. *)
Theorem C14_type_codes : forall b t, type_of_code b = Some t <-> b = spec_code t.
Proof.
  intros b t. split.
  - destruct b; vm_compute; intros H; try discriminate; injection H as <-; reflexivity.
  - intros ->. destruct t; reflexivity.
Qed.

(** The code the writer emits is the one of the table, hence decodes to the same type. *)
Theorem C14_writer_codes : forall t, type_code t = spec_code t /\ type_of_code (type_code t) = Some t.
Proof. intros t. destruct t; split; reflexivity. Qed.

Theorem C14_encodings : forall v,
  enc_of_u32 v = (if (v =? 0)%N then Some EncDirect else if (v =? 1)%N then Some EncZlib else None) /\
  (forall e, enc_of_u32 (enc_to_u32 e) = Some e).
Proof.
  intros v. split; [|intros []; reflexivity]. destruct v as [|[p|p|]]; try reflexivity.
Qed.

Section Reject.
Context {env : Env}.

(** Loading an attribute that starts with a byte outside the table fails with
    [InvalidAttributeTypeCode] carrying that byte. *)
Theorem C14_unknown_code_rejected : forall O buffered (ld : loader O) s a b rest,
  p_health s = Running -> p_attrs s = Some a -> (0 < a_rest a)%N -> (a_next a <= r_pos (p_rd s))%N ->
  position_of s <> None -> nofail (s_sched (r_stream (p_rd s))) = true ->
  (r_pos (p_rd s) < pow2_63)%N ->
  s_rem (r_stream (p_rd s)) = b :: rest -> (forall t, b <> spec_code t) ->
  exists p s', load_next_gen buffered ld s = (Err (mkErr (EData (InvalidAttributeTypeCode b)) (Some p)), s').
Proof.
  intros O buffered ld s a b rest Hh Ha Hr Hn Hpos Hf Hp Hrem Hb.
  unfold load_next_gen, do_with_health_check. unfold bind at 1. unfold ensure_continuable. rewrite Hh.
  unfold get_attrs. rewrite bind_assoc, bind_gets, Ha, bind_ret.
  destruct (read_exact_ok 1 s [b] rest Hf Hrem eq_refl) as (s1 & E1 & _ & _ & _ & Es).
  { unfold pow2_63, pow2_64 in *. lia. }
  assert (Et : read_next_attr_type s = (Err (err_from (EData (InvalidAttributeTypeCode b))), s1)).
  { unfold read_next_attr_type, get_attrs, reader_pos. rewrite bind_assoc, bind_gets, Ha, bind_ret.
    destruct (a_rest a =? 0)%N eqn:E0; [apply N.eqb_eq in E0; lia|].
    rewrite bind_gets. destruct (r_pos (p_rd s) <? a_next a)%N eqn:El; [apply N.ltb_lt in El; lia|].
    cbn [when]. rewrite bind_ret. unfold read_attr_type, parse_u8. rewrite !bind_assoc.
    rewrite (bind_ok _ _ _ _ _ _ _ E1). rewrite bind_ret. cbn [hd].
    destruct (type_of_code b) as [t|] eqn:Ec; [|reflexivity].
    apply C14_type_codes in Ec. exfalso. exact (Hb t Ec). }
  assert (Epos : exists p0, position s1 = (Ok p0, s1)).
  { unfold position. rewrite Es. unfold position_of in *. cbn. destruct (p_stack s); [eauto|].
    destruct (p_top s =? 0)%N; [congruence|eauto]. }
  destruct Epos as [p0 Epos].
  unfold bind at 1. unfold try_. rewrite (bind_err _ _ _ _ _ _ _ Et).
  unfold attr_position. rewrite bind_assoc, (bind_ok _ _ _ _ _ _ _ Epos), bind_ret, bind_modify.
  cbn. do 2 eexists. reflexivity.
Qed.

(** Reading an array header whose encoding field is neither 0 nor 1 fails with
    [InvalidArrayAttributeEncoding] carrying the value. *)
Theorem C14_unknown_encoding_rejected : forall s c e rest,
  nofail (s_sched (r_stream (p_rd s))) = true -> (r_pos (p_rd s) < pow2_63)%N ->
  (e < pow2_32)%N -> (1 < e)%N ->
  s_rem (r_stream (p_rd s)) = le_enc 4 c ++ le_enc 4 e ++ rest ->
  exists s', read_array_header s = (Err (err_from (EData (InvalidArrayAttributeEncoding e))), s').
Proof.
  intros s c e rest Hf Hp He H1 Hrem.
  destruct (read_exact_ok 4 s (le_enc 4 c) _ Hf Hrem eq_refl) as (s1 & E1 & R1 & P1 & F1 & _).
  { unfold pow2_63, pow2_64 in *. lia. }
  destruct (read_exact_ok 4 s1 (le_enc 4 e) _ F1 R1 eq_refl) as (s2 & E2 & _ & _ & _ & _).
  { unfold pow2_63, pow2_64 in *. lia. }
  unfold read_array_header, parse_uint.
  rewrite bind_assoc, (bind_ok _ _ _ _ _ _ _ E1), bind_ret, bind_assoc, (bind_ok _ _ _ _ _ _ _ E2), bind_ret.
  rewrite le_dec_enc by (unfold u_ok; change (2 ^ (8 * N.of_nat 4))%N with pow2_32; exact He).
  destruct (C14_encodings e) as [-> _].
  destruct (e =? 0)%N eqn:Z0; [apply N.eqb_eq in Z0; lia|]. destruct (e =? 1)%N eqn:Z1; [apply N.eqb_eq in Z1; lia|].
  eexists. reflexivity.
Qed.
End Reject.

Example C14_ex_rejected :
  option_map (fun x => match nth 1 (fst x) Panic with Err e => e_error e | _ => EIo IoEof end)
    (run_from release (firstn 41 (sample_doc 7400) ++ [x7a] ++ skipn 42 (sample_doc 7400)) [] true [ONext; ld])
  = Some (EData (InvalidAttributeTypeCode x7a)).
Proof. vm_compute. reflexivity. Qed.

(** ** C41 *)

(** For one type [T] with constructor [C], its two getters agree with [type_()]. *)
Definition getter_spec {A} (t : atype) (C : A -> aval) (get : aval -> option A) (get_or : aval -> atype + A) : Prop :=
  forall v,
    (forall x, v = C x -> get v = Some x /\ get_or v = inr x) /\
    (aval_type v <> t -> get v = None /\ get_or v = inl (aval_type v)) /\
    (aval_type v = t <-> exists x, v = C x).

Theorem C41_getters :
  getter_spec TBool VBool get_bool get_bool_or_type /\
  getter_spec TI16 VI16 get_i16 get_i16_or_type /\
  getter_spec TI32 VI32 get_i32 get_i32_or_type /\
  getter_spec TI64 VI64 get_i64 get_i64_or_type /\
  getter_spec TF32 VF32 get_f32 get_f32_or_type /\
  getter_spec TF64 VF64 get_f64 get_f64_or_type /\
  getter_spec TArrBool VArrBool get_arr_bool get_arr_bool_or_type /\
  getter_spec TArrI32 VArrI32 get_arr_i32 get_arr_i32_or_type /\
  getter_spec TArrI64 VArrI64 get_arr_i64 get_arr_i64_or_type /\
  getter_spec TArrF32 VArrF32 get_arr_f32 get_arr_f32_or_type /\
  getter_spec TArrF64 VArrF64 get_arr_f64 get_arr_f64_or_type /\
  getter_spec TString VString get_string get_string_or_type /\
  getter_spec TBinary VBinary get_binary get_binary_or_type.
Proof.
  repeat split; intros; subst; cbn; auto; try congruence;
    destruct v; cbn in *; try congruence; eauto;
    try (destruct H as [x [=]]); auto.
Qed.

Example C41_ex : get_i32 (VI32 7) = Some 7%Z /\ get_i64_or_type (VI32 7) = inl TI32.
Proof. split; reflexivity. Qed.

Print Assumptions C01_header_load.
Print Assumptions C02_parser_creation.
Print Assumptions C14_unknown_code_rejected.
Print Assumptions C41_getters.
