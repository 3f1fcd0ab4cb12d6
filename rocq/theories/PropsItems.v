(** C65: the iterator given to the loader of an array attribute. *)
Require Import Coq.Lists.List Coq.NArith.NArith Coq.ZArith.ZArith Coq.Bool.Bool Coq.micromega.Lia.
Require Import ZifyBool ZifyNat ZifyN.
Require Import Coq.Init.Byte.
Require Import Verif.Base Verif.BaseFacts Verif.Utf8 Verif.Types Verif.Io Verif.IoFacts Verif.Parser Verif.MonadFacts Verif.Zlib Verif.Moves Verif.Loaders Verif.Spec Verif.ReadFacts Verif.ParserSteps Verif.ParserShape Verif.ParserHist Verif.ParserPos Verif.AttrLoad Verif.AttrAny Verif.Layout Verif.PropsAttr Verif.Samples Verif.SpecReader Verif.PropsReader.
Import ListNotations.
Local Open Scope nat_scope.
Ltac Zify.zify_post_hook ::= Z.div_mod_to_equations.

Section WithEnv.
Context {env : Env}.

Lemma uint_more : forall f n v rest s r s', parse_uint n s = (r, s') -> rem_of s = le_enc n v ++ rest -> u_ok n v -> rmay f s ->
  match r with
  | Ok v' => v' = v /\ rem_of s' = rest /\ rmay f s'
  | Err _ => f = true
  | Panic => True
  end.
Proof.
  intros f n v rest s r s' H E U M. unfold parse_uint in H. mstep H as bs s2 E2; [injection H as <- <-| |subst r; exact I].
  - unfold read_exact, try_read in E2. mstep E2 as x s3 E3; try discriminate.
    destruct (exact_more f _ _ _ _ E3 M) as (M3 & K & _). destruct x as [e|got]; [discriminate|]. injection E2 as <- <-. destruct K as [K1 K2]. rewrite E in K1.
    assert (got = le_enc n v) as ->. { apply (f_equal (firstn n)) in K1. rewrite !firstn_len_app in K1 by (rewrite ?le_enc_length; auto). auto. }
    split; [apply le_dec_enc; exact U|]. split; [|exact M3]. apply app_inv_head in K1. auto.
  - subst r. unfold read_exact, try_read in E2. mstep E2 as x s3 E3; try discriminate.
    + destruct (exact_more f _ _ _ _ E3 M) as (M3 & K & _). destruct x as [e9|got]; [|discriminate]. destruct K as (lost & K1 & K2 & [[_ K3]|[K3 _]]); [|exact K3].
      rewrite K3, app_nil_r in K1. rewrite E in K1. rewrite <- K1, app_length, le_enc_length in K2. lia.
    + unfold rdop in E3. destruct (rd_exact _ _) as [[y|] r1]; discriminate.
Qed.

Lemma uint_keeps : forall n s v s', parse_uint n s = (Ok v, s') -> p_attrs s' = p_attrs s /\ p_handler s' = p_handler s.
Proof.
  intros n s v s' H. assert (Q : quieta s (snd (parse_uint n s))) by (apply parse_uint_quiet; rewrite H; discriminate). rewrite H in Q. destruct Q as [Q1 Q2]. split; [exact Q2|apply Q1].
Qed.

Section Elements.
Context {A : Type} (f : bool) (el : elem A) (dec : list byte -> A) (Hdec : forall raw, length raw = el_size el -> el_dec el raw = dec raw).

Lemma next_yields : forall n e b s x s', it_next el (mkIter DDirect n e b) s = (x, s') -> rmay f s ->
  match x with
  | Ok (it', y) => exists n' b', it' = mkIter DDirect n' (e || match y with Some z => failed z | None => false end) b' /\
      yields f (el_size el) dec n (rem_of s) y n' (rem_of s') /\ rmay f s' /\ (forall v, y = Some (inr v) -> (n' < n)%N) /\ ((forall raw, el_bad el raw = false) -> b' = b)
  | Err _ => False
  | Panic => True
  end.
Proof.
  intros n e b s x s' H M. unfold it_next in H. cbn [it_rest it_dec it_err it_bad] in H. destruct (N.eqb_spec n 0) as [->|Hn].
  - injection H as <- <-. exists 0%N, b. rewrite orb_false_r. repeat split; auto; [constructor|discriminate].
  - unfold dec_read, try_read in H. rewrite bind_assoc in H. mstep H as r s1 E1; [| |subst x; exact I].
    + destruct (exact_more f _ _ _ _ E1 M) as (M1 & K & _). destruct r as [er|got]; rewrite bind_ret in H; injection H as <- <-.
      * destruct K as (lost & K1 & K2 & [[-> K3]|[K3 (c & ->)]]).
        -- exists n, b. cbn [failed]. rewrite orb_true_r. split; [reflexivity|]. split; [|repeat split; auto; discriminate]. rewrite K3, app_nil_r in K1. rewrite K1, K3. apply yd_eof; assumption.
        -- exists n, b. cbn [failed]. rewrite orb_true_r. split; [reflexivity|]. split; [|repeat split; auto; discriminate]. rewrite K1. apply yd_fails; assumption.
      * destruct K as [K1 K2]. exists (n - 1)%N, (b || el_bad el got). cbn [failed]. rewrite orb_false_r. split; [reflexivity|].
        split; [|repeat split; auto; [intros; lia|intros C; rewrite C; apply orb_false_r]]. rewrite K1, Hdec by exact K2. apply yd_some; assumption.
    + unfold rdop in E1. destruct (rd_exact _ _) as [[y|] r1]; discriminate.
Qed.

Lemma loop_collects : forall m n e b acc s x s', nloop m (collect_step el) (mkIter DDirect n e b, acc) s = (x, s') -> rmay f s -> (n < N.of_nat m)%N ->
  match x with
  | Ok (inr (it', y)) => exists l n' b', it' = mkIter DDirect n' (e || failed l) b' /\ collects f (el_size el) dec n (rem_of s) l n' (rem_of s') /\ rmay f s' /\
      y = match l with inl er => inl er | inr vs => inr (rev acc ++ vs) end /\ ((forall raw, el_bad el raw = false) -> b' = b)
  | Ok (inl _) | Err _ => False
  | Panic => True
  end.
Proof.
  intros m. induction m as [|m IH]; intros n e b acc s x s' H M L; [lia|]. cbn [nloop] in H. unfold collect_step at 1 in H. rewrite bind_assoc in H.
  mstep H as y s1 E1; [| |subst x; exact I]; pose proof (next_yields _ _ _ _ _ _ E1 M) as K; cbv beta iota in K; [|contradiction].
  destruct y as [it' y]. destruct K as (n1 & b1 & -> & Y & M1 & Zl & B1). destruct y as [[er|v]|]; rewrite bind_ret in H.
  - injection H as <- <-. exists (inl er), n1, b1. cbn [failed] in *. split; [reflexivity|]. split; [apply cl_error; exact Y|]. auto.
  - cbn [failed] in H. specialize (Zl v eq_refl). pose proof (IH _ _ _ _ _ _ _ H M1 ltac:(lia)) as K. destruct x as [[?|[it2 y2]]|?|]; try exact K.
    destruct K as (l & n2 & b2 & -> & C & M2 & -> & B2). exists (match l with inl er => inl er | inr vs => inr (v :: vs) end), n2, b2. rewrite orb_false_r. split; [destruct l; reflexivity|].
    split; [eapply cl_some; eauto|]. split; [exact M2|]. split; [|intros Q; rewrite (B2 Q); auto]. destruct l; [reflexivity|]. cbn [rev]. rewrite <- app_assoc. reflexivity.
  - injection H as <- <-. exists (inr []), n1, b1. split; [reflexivity|]. split; [apply cl_none; exact Y|]. split; [exact M1|]. rewrite app_nil_r. auto.
Qed.

Lemma seq_gives : forall O (p : seqprog A O) n e b s x s', run_seq el p (mkIter DDirect n e b) s = (x, s') -> rmay f s ->
  match x with
  | Ok (it', r) => exists err n' b', it' = mkIter DDirect n' (e || err) b' /\ gives f (el_size el) dec n (rem_of s) p r (rem_of s') err /\ rmay f s' /\ ((forall raw, el_bad el raw = false) -> b' = b)
  | Err _ => False
  | Panic => True
  end.
Proof.
  intros O p. induction p as [r|k IH|k IH]; intros n e b s x s' H M; cbn [run_seq] in H.
  - injection H as <- <-. exists false, n, b. rewrite orb_false_r. split; [reflexivity|]. split; [constructor|auto].
  - mstep H as y s1 E1; [| |subst x; exact I]; pose proof (next_yields _ _ _ _ _ _ E1 M) as K; cbv beta iota in K; [|contradiction].
    destruct y as [it' y]. destruct K as (n1 & b1 & -> & Y & M1 & _ & B1). pose proof (IH _ _ _ _ _ _ _ H M1) as K. destruct x as [[it2 r]|?|]; try exact K.
    destruct K as (err & n2 & b2 & -> & G & M2 & B2). eexists _, n2, b2. split; [|split; [eapply gv_next; eauto|split; [exact M2|intros Q; rewrite (B2 Q); auto]]]. rewrite orb_assoc. reflexivity.
  - mstep H as y s1 E1; [| |subst x; exact I].
    + unfold it_collect in E1. mstep E1 as z s2 E2; try discriminate. rewrite mloop_nloop in E2. cbn [it_rest] in E2.
      pose proof (loop_collects _ _ _ _ _ _ _ _ E2 M ltac:(lia)) as K. destruct z as [?|[it2 y2]]; [contradiction|]. injection E1 as <- <-.
      destruct K as (l & n1 & b1 & -> & C & M1 & Ey & B1). cbn [rev app] in Ey. assert (y2 = l) as -> by (destruct l; exact Ey).
      pose proof (IH _ _ _ _ _ _ _ H M1) as K. destruct x as [[it3 r]|?|]; try exact K.
      destruct K as (err & n2 & b2 & -> & G & M2 & B2). eexists _, n2, b2. split; [|split; [eapply gv_collect; eauto|split; [exact M2|intros Q; rewrite (B2 Q); auto]]]. rewrite orb_assoc. reflexivity.
    + unfold it_collect in E1. mstep E1 as z s2 E2; try discriminate.
      * destruct z; discriminate.
      * rewrite mloop_nloop in E2. destruct (loop_collects _ _ _ _ _ _ _ _ E2 M ltac:(cbn [it_rest]; lia)).
Qed.

(** The array branch on an uncompressed array. *)
Lemma array_serves : forall O (ld : N -> seqprog A O) start idx s n len rest x s',
  rem_of s = le_enc 4 n ++ le_enc 4 0 ++ le_enc 4 len ++ rest -> u_ok 4 n -> u_ok 4 len ->
  load_array el ld start idx s = (x, s') -> rmay f s -> p_attrs s <> None ->
  match x with
  | Ok w => gives f (el_size el) dec n rest (ld n) (inr w) (rem_of s') false
  | Err e => f = false -> exists r err, gives f (el_size el) dec n rest (ld n) r (rem_of s') err /\
      (r = inl e \/ exists w, r = inr w /\ (p_handler s = None \/ (forall raw, el_bad el raw = false) -> err = true /\ e = err_from (EData NodeAttributeError)))
  | Panic => True
  end.
Proof.
  intros O ld start idx s n len rest x s' E Un Ul H M Ha. unfold load_array, read_array_header in H. rewrite bind_assoc in H.
  mstep H as n0 s1 E1; [|subst x|subst x; exact I]; pose proof (uint_more f 4 n _ _ _ _ E1 E Un M) as K; [destruct K as (-> & R1 & M1)|intros Kf; rewrite Kf in K; discriminate].
  destruct (uint_keeps _ _ _ _ E1) as [P1 T1].
  rewrite bind_assoc in H.
  mstep H as c s2 E2; [|subst x|subst x; exact I]; (assert (U0 : u_ok 4 0) by reflexivity); pose proof (uint_more f 4 0 _ _ _ _ E2 R1 U0 M1) as K; [destruct K as (-> & R2 & M2)|intros Kf; rewrite Kf in K; discriminate].
  destruct (uint_keeps _ _ _ _ E2) as [P2 T2].
  change (enc_of_u32 0) with (Some EncDirect) in H. cbv iota in H. rewrite bind_assoc in H.
  mstep H as l s3 E3; [|subst x|subst x; exact I]; pose proof (uint_more f 4 len _ _ _ _ E3 R2 Ul M2) as K; [destruct K as (-> & R3 & M3)|intros Kf; rewrite Kf in K; discriminate].
  destruct (uint_keeps _ _ _ _ E3) as [P3 T3]. rewrite bind_ret in H.
  assert (Ha3 : p_attrs s3 <> None) by (rewrite P3, P2, P1; exact Ha). assert (Hh3 : p_handler s3 = p_handler s) by (rewrite T3, T2, T1; reflexivity).
  mstep H as u s4 E4.
  2,3: unfold update_next_attr_start_offset, get_attrs, reader_pos in E4; rewrite bind_gets in E4; unfold bind at 1 in E4; rewrite bind_gets in E4;
    destruct (p_attrs s3); cbn in E4; [|tauto]; destruct (_ <? _)%N; try discriminate; subst x; exact I.
  assert (Q4 : p_rd s4 = p_rd s3 /\ p_handler s4 = p_handler s3).
  { unfold update_next_attr_start_offset, get_attrs, reader_pos in E4. rewrite bind_gets in E4. unfold bind at 1 in E4. rewrite bind_gets in E4.
    destruct (p_attrs s3); cbn in E4; [|discriminate]. destruct (_ <? _)%N; [|discriminate]. injection E4 as <- <-. split; reflexivity. }
  destruct Q4 as [Q4 H4]. assert (M4 : rmay f s4) by (unfold rmay in *; rewrite Q4; exact M3). assert (R4 : rem_of s4 = rest) by (unfold rem_of in *; rewrite Q4; exact R3).
  cbn [mk_decoder] in H. rewrite bind_ret in H. mstep H as y s5 E5; [| |subst x; exact I]; pose proof (seq_gives _ _ _ _ _ _ _ _ E5 M4) as K; cbv beta iota in K; [|contradiction].
  assert (H5 : p_handler s5 = p_handler s4). { assert (Q : quieta s4 (snd (run_seq el (ld n) (mkIter DDirect n false false) s4))) by (apply run_seq_quiet; rewrite E5; discriminate). rewrite E5 in Q. apply Q. }
  destruct y as [it r]. destruct K as (err & n' & b' & -> & G & M5 & B5). rewrite R4 in G. cbn [it_bad it_err fst orb] in *.
  destruct r as [er|w].
  - cbn [lift] in H. injection H as <- <-. intros _. exists (inl er), err. auto.
  - cbn [lift] in H. rewrite bind_ret in H.
    assert (W : forall z s6, when b' (warn_bool start idx) s5 = (z, s6) -> rem_of s6 = rem_of s5 /\ (p_handler s = None \/ (forall raw, el_bad el raw = false) -> z <> Panic -> z = Ok tt)).
    { intros z s6 Hz. destruct b'; cbn [when] in Hz.
      - unfold warn_bool, attr_position, position, bind, ret in Hz. destruct (position_of s5) as [q|]; [|injection Hz as <- <-; split; [reflexivity|tauto]].
        unfold warn in Hz. rewrite H5, H4, Hh3 in Hz. destruct (p_handler s) as [h|]; [destruct (h _)|]; injection Hz as <- <-; (split; [reflexivity|]); auto.
        intros [C|C] _; [discriminate|]. specialize (B5 C). discriminate.
      - injection Hz as <- <-. auto. }
    mstep H as u6 s6 E6; destruct (W _ _ E6) as [W1 W2]; [| |subst x; exact I].
    + destruct err; injection H as <- <-.
      * intros _. exists (inr w), true. rewrite W1. split; [exact G|]. right. exists w. auto.
      * rewrite W1. exact G.
    + subst x. intros _. exists (inr w), err. rewrite W1. split; [exact G|]. right. exists w. split; [reflexivity|]. intros C. specialize (W2 C ltac:(discriminate)). discriminate.
Qed.
End Elements.

Definition is_array (t : atype) : bool := match t with TArrBool | TArrI32 | TArrI64 | TArrF32 | TArrF64 => true | _ => false end.

Lemma bool_dec : forall raw, length raw = el_size el_bool -> el_dec el_bool raw = N.odd (le_dec raw).
Proof.
  intros [|b [|]] H; try discriminate H. cbn [el_dec el_bool hd le_dec]. unfold bool_of_raw. rewrite N.mul_0_r, N.add_0_r. reflexivity.
Qed.

Lemma impl_gives : forall O f b t (ld : loader O) start idx s n len rest x s', is_array t = true ->
  rem_of s = le_enc 4 n ++ le_enc 4 0 ++ le_enc 4 len ++ rest -> u_ok 4 n -> u_ok 4 len ->
  load_next_impl b t ld start idx s = (x, s') -> rmay f s -> p_attrs s <> None ->
  match x with
  | Ok w => array_gives f t ld n rest (inr w) (rem_of s') false
  | Err e => f = false -> exists r err, array_gives f t ld n rest r (rem_of s') err /\
      (r = inl e \/ exists w, r = inr w /\ ((t = TArrBool -> p_handler s = None) -> err = true /\ e = err_from (EData NodeAttributeError)))
  | Panic => True
  end.
Proof.
  intros O f b t ld start idx s n len rest x s' Ht E Un Ul H M Ha.
  destruct t; try discriminate Ht; cbn [load_next_impl] in H.
  - pose proof (array_serves f el_bool _ bool_dec O _ _ _ _ _ _ _ _ _ E Un Ul H M Ha) as K. destruct x as [w|e|]; [exact K| |exact I].
    intros Hf. destruct (K Hf) as (r & err & G & C). exists r, err. split; [exact G|]. destruct C as [C|(w & -> & C)]; [auto|]. right. exists w. auto.
  - pose proof (array_serves f el_i32 _ (fun _ _ => eq_refl) O _ _ _ _ _ _ _ _ _ E Un Ul H M Ha) as K. destruct x as [w|e|]; [exact K| |exact I].
    intros Hf. destruct (K Hf) as (r & err & G & C). exists r, err. split; [exact G|]. destruct C as [C|(w & -> & C)]; [auto|]. right. exists w. split; [reflexivity|]. intros _. apply C. right. reflexivity.
  - pose proof (array_serves f el_i64 _ (fun _ _ => eq_refl) O _ _ _ _ _ _ _ _ _ E Un Ul H M Ha) as K. destruct x as [w|e|]; [exact K| |exact I].
    intros Hf. destruct (K Hf) as (r & err & G & C). exists r, err. split; [exact G|]. destruct C as [C|(w & -> & C)]; [auto|]. right. exists w. split; [reflexivity|]. intros _. apply C. right. reflexivity.
  - pose proof (array_serves f el_f32 _ (fun _ _ => eq_refl) O _ _ _ _ _ _ _ _ _ E Un Ul H M Ha) as K. destruct x as [w|e|]; [exact K| |exact I].
    intros Hf. destruct (K Hf) as (r & err & G & C). exists r, err. split; [exact G|]. destruct C as [C|(w & -> & C)]; [auto|]. right. exists w. split; [reflexivity|]. intros _. apply C. right. reflexivity.
  - pose proof (array_serves f el_f64 _ (fun _ _ => eq_refl) O _ _ _ _ _ _ _ _ _ E Un Ul H M Ha) as K. destruct x as [w|e|]; [exact K| |exact I].
    intros Hf. destruct (K Hf) as (r & err & G & C). exists r, err. split; [exact G|]. destruct C as [C|(w & -> & C)]; [auto|]. right. exists w. split; [reflexivity|]. intros _. apply C. right. reflexivity.
Qed.

(** Whatever the source does: if the load of the next attribute, an uncompressed array of [n]
    elements whose header declares [len] bytes, succeeds, then its value is what the loader
    makes of a well-behaved iterator over [n] elements that yielded no error. *)
Theorem C65_items : forall O b (ld : loader O) s a junk t n len rest w s',
  is_array t = true -> u_ok 4 n -> u_ok 4 len ->
  p_attrs s = Some a -> a_next a = (pos_of s + lenN junk)%N ->
  rem_of s = junk ++ spec_code t :: le_enc 4 n ++ le_enc 4 0 ++ le_enc 4 len ++ rest ->
  run_op (load_op b ld) s = (Ok (BAttr (Some w)), s') ->
  array_gives true t ld n rest (inr w) (rem_of s') false.
Proof.
  intros O b ld s a junk t n len rest w s' Ht Un Ul Ha Hx E H. rewrite load_op_run in H by congruence. unfold bind in H.
  destruct (load_next_gen b ld s) as [[v|e|] s1] eqn:E1; try discriminate. injection H as -> ->.
  destruct (reach _ _ _ _ _ _ _ _ _ _ _ Ha Hx E (type_code_spec t) E1) as (start & idx & s4 & R4 & A4 & E4).
  exact (impl_gives _ true _ _ _ _ _ _ _ _ _ _ _ Ht R4 Un Ul E4 (or_introl eq_refl) A4).
Qed.

(** If the source does not fail, the loader is run on a well-behaved iterator whose only error
    is the end of the stream.  The load gives the loader's result, except that a value is
    replaced by the error [NodeAttributeError] if the iterator has yielded an error. *)
Theorem C65_items_total : forall O b (ld : loader O) s m t n len rest x s',
  is_array t = true -> u_ok 4 n -> u_ok 4 len -> (t = TArrBool -> p_handler s = None) ->
  next_at s m (spec_code t :: le_enc 4 n ++ le_enc 4 0 ++ le_enc 4 len ++ rest) -> (1 <= m)%N ->
  run_op (load_op b ld) s = (x, s') -> x <> Panic ->
  exists r err, array_gives false t ld n rest r (rem_of s') err /\
    match r with
    | inr w => if err then exists p, x = Err (err_with_position (EData NodeAttributeError) p) else x = Ok (BAttr (Some w))
    | inl e => exists p, x = Err (and_position e p)
    end.
Proof.
  intros O b ld s m t n len rest x s' Ht Un Ul Hw H H1 HR HP. rewrite load_op_run in HR by (eapply next_at_attrs; eauto). pose proof H as (Hh & _ & Hpos & _).
  destruct (next_at_load O b ld s m _ _ _ H H1 (type_code_spec _)) as (start & idx & s1 & a1 & T1 & A1 & Y1 & R1 & G).
  destruct (load_next_impl b t ld start idx s1) as [r s2] eqn:E2. pose proof (G _ _ eq_refl) as G2.
  assert (M1 : rmay false s1) by (right; apply Y1). assert (Ha : p_attrs s1 <> None) by (rewrite T1; discriminate). assert (Hh1 : p_handler s1 = p_handler s) by (rewrite T1; reflexivity).
  pose proof (impl_gives _ false _ _ _ _ _ _ _ _ _ _ _ Ht R1 Un Ul E2 M1 Ha) as K. unfold bind in HR. destruct r as [w|e|].
  - rewrite G2 in HR. injection HR as <- <-. exists (inr w), false. auto.
  - destruct (K eq_refl) as (r & err & K1 & K2).
    assert (Q : position_of s2 <> None).
    { assert (Q : quietl s1 (snd (load_next_impl b t ld start idx s1))) by (apply load_next_impl_quiet; rewrite E2; discriminate). rewrite E2 in Q. destruct Q as [Q _]. cbn [snd] in Q. apply (position_same s1).
      - apply Q.
      - apply Q.
      - rewrite T1. apply (position_same s); [reflexivity|reflexivity|exact Hpos]. }
    destruct (position_of s2) as [q|]; [|tauto]. destruct (G2 q eq_refl) as (p & G3). rewrite G3 in HR. injection HR as <- <-.
    exists r, err. split; [exact K1|]. destruct K2 as [->|(w & -> & K2)]; [eauto|].
    destruct K2 as [-> ->]; [intros C; rewrite Hh1; auto|]. exists p. reflexivity.
  - rewrite G2 in HR. injection HR as <- <-. congruence.
Qed.

(** *** Compressed arrays *)

Lemma collects_all : forall A size (dec : list byte -> A) l extra, Forall (fun b => length b = size) l ->
  collects false size dec (lenN l) (concat l ++ extra) (inr (map dec l)) 0 extra.
Proof.
  intros A size dec l extra F. induction F as [|b l Hb _ IH]; [apply cl_none; constructor|].
  change (inr (map dec (b :: l))) with (match @inr perr _ (map dec l) with inl e => inl e | inr vs => inr (dec b :: vs) end).
  eapply cl_some; [|exact IH]. cbn [concat]. rewrite <- app_assoc. replace (lenN l) with (lenN (b :: l) - 1)%N by (rewrite lenN_cons; lia).
  apply yd_some; [rewrite lenN_cons; lia|exact Hb].
Qed.

Lemma pure_gives : forall A O size (dec : list byte -> A) (p : seqprog A O) l extra, Forall (fun b => length b = size) l ->
  exists left, gives false size dec (lenN l) (concat l ++ extra) p (fst (pure_seq p (map dec l))) left false.
Proof.
  intros A O size dec p. induction p as [r|k IH|k IH]; intros l extra F; cbn [pure_seq].
  - eexists. constructor.
  - destruct F as [|b l Hb F].
    + destruct (IH None [] extra (Forall_nil _)) as (left & G). exists left. apply (gv_next _ _ _ _ _ _ None 0%N extra _ _ false); [constructor|exact G].
    + destruct (IH (Some (inr (dec b))) l extra F) as (left & G). exists left. cbn [map].
      apply (gv_next _ _ _ _ _ _ (Some (inr (dec b))) (lenN l) (concat l ++ extra) _ _ false); [|exact G].
      cbn [concat]. rewrite <- app_assoc. replace (lenN l) with (lenN (b :: l) - 1)%N by (rewrite lenN_cons; lia). apply yd_some; [rewrite lenN_cons; lia|exact Hb].
  - destruct (IH (inr (map dec l)) [] extra (Forall_nil _)) as (left & G). exists left.
    apply (gv_collect _ _ _ _ _ _ (inr (map dec l)) 0%N extra _ _ false); [apply collects_all; exact F|exact G].
Qed.

Lemma map_dec_ext : forall A (f g : list byte -> A) size l, (forall raw, length raw = size -> f raw = g raw) -> Forall (fun b => length b = size) l -> map f l = map g l.
Proof. intros A f g size l H F. induction F as [|b l Hb _ IH]; [reflexivity|]. cbn. rewrite H, IH by assumption. reflexivity. Qed.

Lemma zip_gives : forall A (el : elem A) dec, (forall raw, length raw = el_size el -> el_dec el raw = dec raw) ->
  forall O (ld : N -> seqprog A O) start idx s full raws extra rest, zlib_roundtrip env ->
  ready s -> p_attrs s <> None -> concat full = concat raws ++ extra ->
  rem_of s = le_enc 4 (lenN raws) ++ le_enc 4 1 ++ le_enc 4 (lenN (z_enc full)) ++ z_enc full ++ rest ->
  u_ok 4 (lenN raws) -> u_ok 4 (lenN (z_enc full)) -> Forall (fun b => length b = el_size el) raws ->
  (p_handler s = None \/ forall raw, el_bad el raw = false) -> position_of s <> None ->
  exists r left s', load_array el ld start idx s = (as_res r, s') /\ gives false (el_size el) dec (lenN raws) (concat full) (ld (lenN raws)) r left false.
Proof.
  intros A el dec Hdec O ld start idx s full raws extra rest HZ Y Ha HX E U1 U2 F Hb Hp. destruct (p_attrs s) as [a|] eqn:Ea; [|tauto].
  destruct (load_array_any HZ A O el ld raws (Some full) _ start idx s a rest Y Ea (conj eq_refl (ex_intro _ _ HX)) E U1 U2 F) as (m & s2 & used & E2 & _ & (t & Mt & Tt) & _).
  rewrite (map_dec_ext _ _ _ _ _ Hdec F) in E2. rewrite HX. destruct (pure_gives A O (el_size el) dec (ld (lenN raws)) raws extra F) as (left & G).
  set (r := fst (pure_seq (ld (lenN raws)) (map dec raws))) in *. exists r, left.
  unfold bind at 1 in E2. rewrite lift_res in E2. destruct r as [e|w]; cbn [as_res] in *; [eexists; split; [exact E2|exact G]|].
  destruct (existsb (el_bad el) used) eqn:Eb; cbn [when] in E2; [|eexists; split; [exact E2|exact G]].
  destruct Hb as [Hb|Hb].
  - pose proof Mt as (Et & _). destruct (warn_bool_ok start idx s2) as (q & Eq).
    + apply (position_same s); [rewrite Tt; cbn; rewrite Et; reflexivity|rewrite Tt; cbn; rewrite Et; reflexivity|exact Hp].
    + rewrite Tt. cbn. rewrite Et. exact Hb.
    + unfold bind in E2. rewrite Eq in E2. eexists; split; [exact E2|exact G].
  - exfalso. clear - Eb Hb. induction used as [|b l IH]; [discriminate|]. cbn in Eb. rewrite Hb in Eb. auto.
Qed.

(** The next attribute is a compressed array of the elements [raws], perhaps with more data
    behind them, and the source does not fail.  Then the loader is run on a well-behaved
    iterator over the decompressed bytes which yields no error, and the load gives the
    loader's result. *)
Definition elem_len (t : atype) : nat := match t with TArrBool => 1 | TArrI32 | TArrF32 => 4 | _ => 8 end.
Theorem C65_compressed : forall O b (ld : loader O) s m t full raws extra rest,
  zlib_roundtrip env -> is_array t = true -> (t = TArrBool -> p_handler s = None) ->
  concat full = concat raws ++ extra -> Forall (fun raw => length raw = elem_len t) raws ->
  u_ok 4 (lenN raws) -> u_ok 4 (lenN (z_enc full)) ->
  next_at s m (spec_code t :: le_enc 4 (lenN raws) ++ le_enc 4 1 ++ le_enc 4 (lenN (z_enc full)) ++ z_enc full ++ rest) -> (1 <= m)%N ->
  exists x s' r left, run_op (load_op b ld) s = (x, s') /\
    array_gives false t ld (lenN raws) (concat full) r left false /\
    match r with
    | inr w => x = Ok (BAttr (Some w))
    | inl e => exists p, x = Err (and_position e p)
    end.
Proof.
  intros O b ld s m t full raws extra rest HZ Ht Hw HX F U1 U2 H H1. rewrite load_op_run by (eapply next_at_attrs; eauto). pose proof H as (Hh & _ & Hpos & _).
  destruct (next_at_load O b ld s m _ _ _ H H1 (type_code_spec _)) as (start & idx & s1 & a1 & T1 & A1 & Y1 & R1 & G).
  assert (Ha : p_attrs s1 <> None) by (rewrite T1; discriminate). assert (Hh1 : p_handler s1 = p_handler s) by (rewrite T1; reflexivity).
  assert (P1 : position_of s1 <> None) by (rewrite T1; apply (position_same s); [reflexivity|reflexivity|exact Hpos]).
  assert (K : exists r left s', load_next_impl b t ld start idx s1 = (as_res r, s') /\ array_gives false t ld (lenN raws) (concat full) r left false).
  { destruct t; try discriminate Ht; cbn [load_next_impl array_gives elem_len] in *.
    - apply (zip_gives _ el_bool _ bool_dec _ _ _ _ _ _ _ _ _ HZ Y1 Ha HX R1 U1 U2 F); [left; rewrite Hh1; auto|exact P1].
    - apply (zip_gives _ el_i32 _ (fun _ _ => eq_refl) _ _ _ _ _ _ _ _ _ HZ Y1 Ha HX R1 U1 U2 F); [right; reflexivity|exact P1].
    - apply (zip_gives _ el_i64 _ (fun _ _ => eq_refl) _ _ _ _ _ _ _ _ _ HZ Y1 Ha HX R1 U1 U2 F); [right; reflexivity|exact P1].
    - apply (zip_gives _ el_f32 _ (fun _ _ => eq_refl) _ _ _ _ _ _ _ _ _ HZ Y1 Ha HX R1 U1 U2 F); [right; reflexivity|exact P1].
    - apply (zip_gives _ el_f64 _ (fun _ _ => eq_refl) _ _ _ _ _ _ _ _ _ HZ Y1 Ha HX R1 U1 U2 F); [right; reflexivity|exact P1]. }
  destruct K as (r & left & s2 & E2 & K). pose proof (G _ _ E2) as G2. unfold bind. destruct r as [e|w]; cbn [as_res] in G2.
  - assert (Q : position_of s2 <> None).
    { assert (Q : quietl s1 (snd (load_next_impl b t ld start idx s1))) by (apply load_next_impl_quiet; rewrite E2; discriminate). rewrite E2 in Q. destruct Q as [Q _]. cbn [snd] in Q. apply (position_same s1); [apply Q|apply Q|exact P1]. }
    destruct (position_of s2) as [q|]; [|tauto]. destruct (G2 q eq_refl) as (p & G3). rewrite G3. do 4 eexists. split; [reflexivity|]. split; [exact K|]. cbv beta iota. exists p. reflexivity.
  - cbv beta iota in G2. rewrite G2. do 4 eexists. split; [reflexivity|]. split; [exact K|]. reflexivity.
Qed.

(** What a loader makes of an iterator over given bytes is determined if the source does not
    fail. *)
Lemma yields_det : forall A size (dec : list byte -> A) n bs x n' left x2 n2 left2,
  yields false size dec n bs x n' left -> yields false size dec n bs x2 n2 left2 -> x = x2 /\ n' = n2 /\ left = left2.
Proof.
  intros A size dec n bs x n' left x2 n2 left2 H K.
  destruct H as [bs|n raw bs Hn Hl|n bs Hn Hl|]; try discriminate; inversion K; subst; try congruence; auto;
    try (match goal with E : _ ++ _ = _ ++ _ |- _ => apply app_inv_len in E; [destruct E as [-> ->]; auto|unfold lenN; congruence] end);
    rewrite app_length in *; lia.
Qed.
Lemma collects_det : forall A size (dec : list byte -> A) n bs x n' left, collects false size dec n bs x n' left ->
  forall x2 n2 left2, collects false size dec n bs x2 n2 left2 -> x = x2 /\ n' = n2 /\ left = left2.
Proof.
  intros A size dec n bs x n' left H. induction H as [n bs n' left Y|n bs e n' left Y|n bs v n1 bs1 l n' left Y _ IH]; intros x2 n2 left2 K;
    inversion K; subst; match goal with Y2 : yields _ _ _ n bs _ _ _ |- _ => destruct (yields_det _ _ _ _ _ _ _ _ _ _ _ Y Y2) as (E1 & E2 & E3); try discriminate E1; subst end; auto.
  - injection E1 as ->. auto.
  - injection E1 as ->. match goal with C : collects _ _ _ _ _ _ _ _ |- _ => destruct (IH _ _ _ C) as (-> & -> & ->) end. auto.
Qed.
Lemma gives_det : forall A O size (dec : list byte -> A) (p : seqprog A O) n bs r left err r2 left2 err2,
  gives false size dec n bs p r left err -> gives false size dec n bs p r2 left2 err2 -> r = r2 /\ left = left2 /\ err = err2.
Proof.
  intros A O size dec p. induction p as [r0|k IH|k IH]; intros n bs r left err r2 left2 err2 H K; inversion H; subst; inversion K; subst; auto.
  - match goal with Y1 : yields _ _ _ n bs _ _ _, Y2 : yields _ _ _ n bs _ _ _ |- _ => destruct (yields_det _ _ _ _ _ _ _ _ _ _ _ Y1 Y2) as (-> & -> & ->) end.
    match goal with G1 : gives _ _ _ _ _ _ r _ _, G2 : gives _ _ _ _ _ _ r2 _ _ |- _ => destruct (IH _ _ _ _ _ _ _ _ _ G1 G2) as (-> & -> & ->) end. auto.
  - match goal with Y1 : collects _ _ _ n bs _ _ _, Y2 : collects _ _ _ n bs _ _ _ |- _ => destruct (collects_det _ _ _ _ _ _ _ _ Y1 _ _ _ Y2) as (-> & -> & ->) end.
    match goal with G1 : gives _ _ _ _ _ _ r _ _, G2 : gives _ _ _ _ _ _ r2 _ _ |- _ => destruct (IH _ _ _ _ _ _ _ _ _ G1 G2) as (-> & -> & ->) end. auto.
Qed.
Theorem C65_determined : forall O t (ld : loader O) n bs r left err r2 left2 err2,
  array_gives false t ld n bs r left err -> array_gives false t ld n bs r2 left2 err2 -> r = r2 /\ left = left2 /\ err = err2.
Proof. intros O t ld n bs r left err r2 left2 err2 H K. destruct t; try contradiction H; exact (gives_det _ _ _ _ _ _ _ _ _ _ _ _ _ H K). Qed.
End WithEnv.

(** ** Concrete cases *)
Module ItemCases.
Import ReaderCases.

(** A loader that takes one element, then collects the others. *)
Definition one_then_all : N -> seqprog Z (option (perr + Z) * list Z) := fun _ =>
  SNext (fun a => SCollect (fun l => SRet match l with inl e => inl e | inr vs => inr (a, vs) end)).
(** A loader that goes on after errors: it calls [next] three times and keeps the values. *)
Definition stubborn : N -> seqprog Z (option (perr + Z) * list Z) := fun _ =>
  SNext (fun a => SNext (fun b => SNext (fun c => SRet (inr (a, match b, c with
    | Some (inr v), Some (inr w) => [v; w] | Some (inr v), _ => [v] | _, Some (inr w) => [w] | _, _ => [] end))))).
Definition items_loader (p : N -> seqprog Z (option (perr + Z) * list Z)) : loader (option (perr + Z) * list Z) :=
  let no := inr (None, []) in
  mkLoader (fun _ => no) (fun _ => no) (fun _ => no) (fun _ => no) (fun _ => no) (fun _ => no)
    (fun _ => SRet no) p p (fun _ => SRet no) (fun _ => SRet no)
    (fun _ => RRet no) (fun _ => RRet no) (fun _ => RRet no) (fun _ => RRet no).

(** Three elements; the header declares 4 bytes only. *)
Definition body : list byte := le_enc 4 1 ++ le_enc 4 4294967295 ++ le_enc 4 7.
Definition arr_doc : list byte := one_node 1 ([x69] ++ le_enc 4 3 ++ le_enc 4 0 ++ le_enc 4 4 ++ body) (zeros 30).
Definition s_arr : pstate := Eval vm_compute in match run_from release arr_doc [] true [@ONext aval] with Some (_, s) => s | None => nowhere end.
Example items_ex : exists p rs s', opened arr_doc [] [] true None p /\ run_ops (env := release) [@ONext aval] p = (rs, s_arr) /\
  next_at s_arr 1 (spec_code TArrI32 :: le_enc 4 3 ++ le_enc 4 0 ++ le_enc 4 4 ++ body ++ zeros 30) /\
  run_op (env := release) (load_op false (items_loader one_then_all)) s_arr = (Ok (BAttr (Some (Some (inr 1%Z), [-1; 7]%Z))), s').
Proof.
  unfold opened. do 3 eexists. split; [eexists; split; [vm_compute; reflexivity|reflexivity]|]. split; [vm_compute; reflexivity|].
  split.
  - unfold next_at. split; [reflexivity|]. split; [split; [split; reflexivity|vm_compute; reflexivity]|]. split; [vm_compute; discriminate|].
    exists (mkAttrs 1 1 41), []. split; [vm_compute; reflexivity|]. split; [vm_compute; reflexivity|]. split; vm_compute; reflexivity.
  - vm_compute. reflexivity.
Qed.
(** The stream ends within the second element: a loader that ignores the error has its value
    replaced by an error. *)
Definition cut_doc : list byte := one_node 1 ([x69] ++ le_enc 4 3 ++ le_enc 4 0 ++ le_enc 4 12 ++ firstn 6 body) [].
Definition s_cut : pstate := Eval vm_compute in match run_from release cut_doc [] true [@ONext aval] with Some (_, s) => s | None => nowhere end.
Example items_cut_ex : exists p rs s' q, opened cut_doc [] [] true None p /\ run_ops (env := release) [@ONext aval] p = (rs, s_cut) /\
  next_at s_cut 1 (spec_code TArrI32 :: le_enc 4 3 ++ le_enc 4 0 ++ le_enc 4 12 ++ firstn 6 body) /\
  run_op (env := release) (load_op true (items_loader stubborn)) s_cut = (Err (err_with_position (EData NodeAttributeError) q), s').
Proof.
  unfold opened. do 4 eexists. split; [eexists; split; [vm_compute; reflexivity|reflexivity]|]. split; [vm_compute; reflexivity|].
  split.
  - unfold next_at. split; [reflexivity|]. split; [split; [split; reflexivity|vm_compute; reflexivity]|]. split; [vm_compute; discriminate|].
    exists (mkAttrs 1 1 41), []. split; [vm_compute; reflexivity|]. split; [vm_compute; reflexivity|]. split; vm_compute; reflexivity.
  - vm_compute. reflexivity.
Qed.
(** A compressed array of three elements, with the stored codec; the data holds two bytes more. *)
Definition zip_env : Env := stored_env false.
Definition zip_full : list (list byte) := [le_enc 4 1 ++ le_enc 4 4294967295; le_enc 4 7; [x61; x62]].
Definition zip_body : list byte := z_enc (env := zip_env) zip_full.
Definition zip_doc : list byte := one_node 1 ([x69] ++ le_enc 4 3 ++ le_enc 4 1 ++ le_enc 4 (lenN zip_body) ++ zip_body) (zeros 30).
Definition s_zip : pstate := Eval vm_compute in match run_from zip_env zip_doc [] true [@ONext aval] with Some (_, s) => s | None => nowhere end.
Example compressed_ex : zlib_roundtrip zip_env /\
  concat zip_full = concat [le_enc 4 1; le_enc 4 4294967295; le_enc 4 7] ++ [x61; x62] /\
  Forall (fun raw => length raw = elem_len TArrI32) [le_enc 4 1; le_enc 4 4294967295; le_enc 4 7] /\
  exists p rs s', opened zip_doc [] [] true None p /\ run_ops (env := zip_env) [@ONext aval] p = (rs, s_zip) /\
  next_at s_zip 1 (spec_code TArrI32 :: le_enc 4 3 ++ le_enc 4 1 ++ le_enc 4 (lenN zip_body) ++ zip_body ++ zeros 30) /\
  run_op (env := zip_env) (load_op false (items_loader one_then_all)) s_zip = (Ok (BAttr (Some (Some (inr 1%Z), [-1; 7]%Z))), s').
Proof.
  split; [apply stored_roundtrip|]. split; [reflexivity|]. split; [repeat constructor|].
  unfold opened. do 3 eexists. split; [eexists; split; [vm_compute; reflexivity|reflexivity]|]. split; [vm_compute; reflexivity|].
  split.
  - unfold next_at. split; [reflexivity|]. split; [split; [split; reflexivity|vm_compute; reflexivity]|]. split; [vm_compute; discriminate|].
    exists (mkAttrs 1 1 41), []. split; [vm_compute; reflexivity|]. split; [vm_compute; reflexivity|]. split; vm_compute; reflexivity.
  - vm_compute. reflexivity.
Qed.
(** The specification is not trivial: an iterator with no element to come yields [None] and takes nothing. *)
Example gives_tight : forall bs r left err,
  gives false 4 (i_dec 4) 0 bs (SNext (fun x => SRet (inr x))) r left err -> r = inr None /\ left = bs.
Proof.
  intros bs r left err H. inversion H; subst.
  match goal with K : yields _ _ _ _ _ _ _ _ |- _ => inversion K; subst; try congruence end.
  match goal with K : gives _ _ _ _ _ (SRet _) _ _ _ |- _ => inversion K; subst; auto end.
Qed.
End ItemCases.
