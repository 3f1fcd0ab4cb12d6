(** What loaders are given: the reader of a binary or string attribute. *)
Require Import Coq.Lists.List Coq.NArith.NArith Coq.ZArith.ZArith Coq.Bool.Bool Coq.micromega.Lia.
Require Import ZifyBool ZifyNat ZifyN.
Require Import Coq.Init.Byte.
Require Import Verif.Base Verif.BaseFacts Verif.Utf8 Verif.Types Verif.Io Verif.IoFacts Verif.Parser Verif.MonadFacts Verif.Zlib Verif.Moves Verif.Loaders Verif.Spec Verif.ReadFacts Verif.ParserSteps Verif.ParserShape Verif.ParserHist Verif.ParserPos Verif.AttrLoad Verif.AttrAny Verif.PropsAttr Verif.Samples Verif.SpecReader.
Import ListNotations.
Local Open Scope nat_scope.
Ltac Zify.zify_post_hook ::= Z.div_mod_to_equations.

(** The reads of a calm stream do not fail; all errors are one of three. *)
Definition may (f : bool) (sc : list ioact) : Prop := f = true \/ nofail sc = true.

Lemma r1_more : forall f sc rem n x rem' sc', r1 sc rem n = (x, rem', sc') -> may f sc -> may f sc' /\
  match x with
  | inr got => rem = got ++ rem' /\ length got <= n /\ (got = [] -> n = 0 \/ rem' = [])
  | inl e => rem' = rem /\ n <> 0 /\ (e = IoIntr \/ f = true /\ exists c, e = IoOther c)
  end.
Proof.
  intros f sc rem n x rem' sc' H M. split; [destruct M as [M|M]; [left; exact M|right; eapply r1_calm; eauto]|].
  pose proof (r1_gen _ _ _ _ _ _ H) as G. unfold r1 in H. destruct n as [|n].
  - injection H as <- <- <-. auto.
  - destruct sc as [|[k| |c] sc].
    + injection H as <- <- <-. destruct G as [G1 G2]. split; [exact G1|]. split; [exact G2|]. intros E. right. rewrite G1. rewrite E. destruct rem; [reflexivity|discriminate].
    + cbv zeta in H. destruct (Nat.min (S n) (Pos.to_nat k)) as [|m] eqn:EM; [lia|]. injection H as <- <- <-. destruct G as [G1 G2]. split; [exact G1|]. split; [exact G2|].
      intros E. right. rewrite G1, E. destruct rem; [reflexivity|discriminate].
    + injection H as <- <- <-. auto.
    + injection H as <- <- <-. split; [reflexivity|]. split; [discriminate|]. right. destruct M as [M|M]; [|discriminate]. eauto.
Qed.
Lemma rx_more : forall f sc rem n e got rem' sc', rx sc rem n = (e, got, rem', sc') -> may f sc -> may f sc' /\
  match e with
  | None => True
  | Some x => length got < n /\ (x = IoEof \/ f = true /\ exists c, x = IoOther c)
  end.
Proof.
  intros f sc rem n e got rem' sc' H M. split; [destruct M as [M|M]; [left; exact M|right; eapply rx_calm; eauto]|].
  revert rem n e got rem' sc' H. induction sc as [|a sc IH]; intros rem n e got rem' sc' H.
  - pose proof (rx_gen _ _ _ _ _ _ _ H) as (_ & _ & _ & G). destruct n; cbn [rx] in H; [injection H as <- <- <- <-; exact I|].
    destruct (Nat.leb _ _); injection H as <- <- <- <-; [exact I|]. split; [apply G; reflexivity|auto].
  - assert (M' : may f sc) by (destruct M as [M|M]; [left; exact M|right; destruct a; [exact M|exact M|discriminate]]). specialize (IH M').
    destruct n as [|n]; cbn [rx] in H; [injection H as <- <- <- <-; exact I|]. destruct a as [k| |c].
    + destruct (Nat.min (S n) (Nat.min (Pos.to_nat k) (length rem))) as [|m] eqn:EM; [injection H as <- <- <- <-; cbn [length]; split; [lia|auto]|].
      assert (FL : length (firstn (S m) rem) = Nat.min (S m) (length rem)) by apply firstn_length. set (fm := firstn (S m) rem) in *.
      destruct (rx sc (skipn (S m) rem) (S n - S m)) as [[[e1 g1] r1] s1] eqn:E1. injection H as <- <- <- <-. specialize (IH _ _ _ _ _ _ E1). destruct e1 as [x|]; [|exact I].
      destruct IH as [I1 I2]. split; [|exact I2]. rewrite app_length. lia.
    + eapply IH; eauto.
    + injection H as <- <- <- <-. cbn [length]. split; [lia|]. right. destruct M as [M|M]; [|discriminate]. eauto.
Qed.
Lemma rte_more : forall f sc rem n e got rem' sc', rte sc rem n = (e, got, rem', sc') -> may f sc -> may f sc' /\
  match e with None => True | Some x => f = true /\ exists c, x = IoOther c end.
Proof.
  intros f sc rem n e got rem' sc' H M. split; [destruct M as [M|M]; [left; exact M|right; eapply rte_calm; eauto]|].
  revert rem n e got rem' sc' H. induction sc as [|a sc IH]; intros rem n e got rem' sc' H; cbn [rte] in H; (destruct (n =? 0)%N; [injection H as <- <- <- <-; exact I|]).
  - injection H as <- <- <- <-. exact I.
  - assert (M' : may f sc) by (destruct M as [M|M]; [left; exact M|right; destruct a; [exact M|exact M|discriminate]]). specialize (IH M').
    destruct a as [k| |c].
    + destruct (clip _ _) as [|m]; [injection H as <- <- <- <-; exact I|].
      destruct (rte sc (skipn (S m) rem) _) as [[[e1 g1] r1] s1] eqn:E1. injection H as <- <- <- <-. exact (IH _ _ _ _ _ _ E1).
    + eapply IH; eauto.
    + injection H as <- <- <- <-. destruct M as [M|M]; [|discriminate]. eauto.
Qed.

(** The schedule of a reader. *)
Definition rmay (f : bool) (s : pstate) : Prop := may f (s_sched (r_stream (p_rd s))).

Lemma once_more : forall f n s x s', rdop (rd_once n) s = (Ok x, s') -> rmay f s -> rmay f s' /\
  match x with
  | inr got => rem_of s = got ++ rem_of s' /\ length got <= n /\ (got = [] -> n = 0 \/ rem_of s' = [])
  | inl e => rem_of s' = rem_of s /\ n <> 0 /\ (e = IoIntr \/ f = true /\ exists c, e = IoOther c)
  end.
Proof.
  intros f n s x s' H M. unfold rdop, rd_once in H. destruct (r1 _ _ _) as [[y rem'] sc'] eqn:E. pose proof (r1_more f _ _ _ _ _ _ E M) as [K1 K2].
  cbv zeta in H. destruct (advance _ _); [|discriminate]. injection H as <- <-. split; [exact K1|]. unfold rem_of. cbn [p_rd set_rd with_stream r_stream s_rem]. exact K2.
Qed.
Lemma exact_more : forall f n s x s', rdop (rd_exact n) s = (Ok x, s') -> rmay f s -> rmay f s' /\
  match x with
  | inr got => rem_of s = got ++ rem_of s' /\ length got = n
  | inl e => exists lost, rem_of s = lost ++ rem_of s' /\ length lost < n /\ (e = IoEof /\ rem_of s' = [] \/ f = true /\ exists c, e = IoOther c)
  end /\ exists d, lenN (rem_of s) = (d + lenN (rem_of s'))%N /\ (r_pos (p_rd s') - r_pos (p_rd s) = d)%N.
Proof.
  intros f n s x s' H M. unfold rdop, rd_exact in H. destruct (rx _ _ _) as [[[e got] rem'] sc'] eqn:E. pose proof (rx_more f _ _ _ _ _ _ _ E M) as [K1 K2]. pose proof (rx_gen _ _ _ _ _ _ _ E) as (G1 & G2 & G3 & G4).
  cbv zeta in H. unfold advance in H. destruct (_ <? _)%N; [|discriminate]. injection H as <- <-. split; [exact K1|]. unfold rem_of. cbn [p_rd set_rd with_stream r_stream s_rem r_pos]. split.
  - destruct e as [e|]; [|auto]. exists got. split; [exact G1|]. destruct K2 as [K2 K3]. split; [exact K2|]. destruct K3 as [->|K3]; [left|right; exact K3]. split; [reflexivity|]. apply G4. reflexivity.
  - exists (lenN got). rewrite G1, lenN_app. split; [reflexivity|lia].
Qed.
Lemma to_end_more : forall f n s e got s', rdop (rd_to_end n) s = (Ok (e, got), s') -> rmay f s -> rmay f s' /\
  rem_of s = got ++ rem_of s' /\ (lenN got <= n)%N /\ (r_pos (p_rd s') - r_pos (p_rd s) = lenN got)%N /\
  match e with None => got = takeN n (rem_of s) | Some x => f = true /\ exists c, x = IoOther c end.
Proof.
  intros f n s x g s' H M. unfold rdop, rd_to_end in H. destruct (rte _ _ _) as [[[e got] rem'] sc'] eqn:E. pose proof (rte_more f _ _ _ _ _ _ _ E M) as [K1 K2]. pose proof (rte_gen _ _ _ _ _ _ _ E) as (G1 & G2 & G3).
  cbv zeta in H. unfold advance in H. destruct (_ <? _)%N; [|discriminate]. injection H as <- <- <-. split; [exact K1|]. unfold rem_of. cbn [p_rd set_rd with_stream r_stream s_rem r_pos].
  split; [exact G1|]. split; [exact G2|]. split; [lia|]. destruct e; [exact K2|]. apply G3. reflexivity.
Qed.

(** The first [n] of the bytes, after some of them have been taken. *)
Lemma taken : forall (got rest : list byte) n, (lenN got <= n)%N -> takeN n (got ++ rest) = got ++ takeN (n - lenN got) rest /\ dropN n (got ++ rest) = dropN (n - lenN got) rest.
Proof.
  intros got rest n L. rewrite !takeN_firstn, !dropN_skipn, firstn_app, skipn_app. unfold lenN in *. split.
  - rewrite firstn_all2 by lia. f_equal. f_equal. lia.
  - rewrite skipn_all2 by lia. cbn [app]. f_equal. lia.
Qed.
Lemma take_short : forall (l : list byte) n, (lenN (takeN n l) < n)%N -> takeN n l = l /\ dropN n l = [].
Proof. intros l n H. rewrite lenN_takeN in H. split; [apply takeN_all; lia|apply dropN_all; lia]. Qed.

Lemma run_serves : forall O f (p : rdprog O) limit s r s', run_rd p limit s = (Ok r, s') -> rmay f s ->
  exists left, serves f (takeN limit (rem_of s)) p r left /\ rem_of s' = left ++ dropN limit (rem_of s).
Proof.
  intros O f p. induction p as [r0|n k IH|n k IH|k IH|amt k IH]; intros limit s r s' H M; cbn [run_rd] in H.
  - injection H as <- <-. exists (takeN limit (rem_of s)). split; [constructor|]. symmetry. apply takeN_dropN.
  - mstep H as x s1 E; try discriminate. destruct (once_more f _ _ _ _ E M) as [M1 K]. destruct x as [e|got].
    + destruct K as (R & N0 & K). rewrite N.sub_0_r in H. destruct (IH _ _ _ _ _ H M1) as (left & S & R1). exists left. rewrite R in *. split; [|exact R1].
      destruct K as [->|[F [c ->]]]; [apply sv_read_interrupted|apply sv_read_fails with c]; auto; lia.
    + destruct K as (R & L & Z). destruct (IH _ _ _ _ _ H M1) as (left & S & R1). exists left.
      destruct (taken got (rem_of s1) limit) as [T1 T2]; [unfold lenN; lia|]. rewrite R, T1, T2. split; [|exact R1]. apply sv_read; [lia| |exact S].
      intros ->. destruct (Z eq_refl) as [Z0|Z0]; [|right; rewrite Z0; rewrite takeN_firstn, firstn_nil; reflexivity].
      destruct (N.eq_dec limit 0) as [->|]; [right; rewrite takeN_firstn; reflexivity|left; lia].
  - destruct (N.of_nat n <=? limit)%N eqn:EL.
    + unfold reader_pos in H. rewrite bind_gets in H. mstep H as x s1 E; try discriminate. rewrite bind_gets in H. destruct (exact_more f _ _ _ _ E M) as (M1 & K & d & D1 & D2).
      rewrite D2 in H. destruct (IH _ _ _ _ _ H M1) as (left & S & R1). exists left. destruct x as [e|got].
      * destruct K as (lost & R & L & K). assert (d = lenN lost) as -> by (rewrite R, lenN_app in D1; lia).
        destruct (taken lost (rem_of s1) limit) as [T1 T2]; [unfold lenN; lia|]. rewrite R, T1, T2. split; [|exact R1]. destruct K as [[-> Z]|[F [c ->]]].
        -- rewrite Z in *. rewrite takeN_firstn, firstn_nil in *. rewrite app_nil_r. apply sv_exact_eof; auto.
        -- apply sv_exact_fails with c; auto.
      * destruct K as (R & L). assert (d = lenN got) as -> by (rewrite R, lenN_app in D1; lia).
        destruct (taken got (rem_of s1) limit) as [T1 T2]; [unfold lenN; lia|]. rewrite R, T1, T2. split; [|exact R1]. rewrite <- L. apply sv_exact. exact S.
    + unfold reader_pos in H. rewrite bind_gets in H. mstep H as x s1 E; try discriminate. rewrite bind_gets in H. destruct x as [e got]. destruct (to_end_more f _ _ _ _ _ E M) as (M1 & R & L & D & K).
      rewrite D in H. cbn [fst] in H. destruct (IH _ _ _ _ _ H M1) as (left & S & R1). exists left.
      destruct (taken got (rem_of s1) limit L) as [T1 T2]. rewrite R, T1, T2. split; [|exact R1]. destruct e as [e|].
      * destruct K as [F [c ->]]. apply sv_exact_fails with c; auto. unfold lenN in *. lia.
      * assert (Z : takeN (limit - lenN got) (rem_of s1) = []).
        { rewrite R in K at 1. rewrite T1 in K. apply (f_equal (@length byte)) in K. rewrite app_length in K. destruct (takeN _ _); [reflexivity|cbn in K; lia]. }
        rewrite Z in *. rewrite app_nil_r. apply sv_exact_eof; [|exact S]. unfold lenN in *. lia.
  - unfold reader_pos in H. rewrite bind_gets in H. mstep H as x s1 E; try discriminate. rewrite bind_gets in H. destruct x as [e got]. destruct (to_end_more f _ _ _ _ _ E M) as (M1 & R & L & D & K).
    rewrite D in H. destruct (IH _ _ _ _ _ H M1) as (left & S & R1). exists left.
    destruct (taken got (rem_of s1) limit L) as [T1 T2]. rewrite R, T1, T2. split; [|exact R1]. destruct e as [e|].
    + destruct K as [F [c ->]]. apply sv_end_fails with c; auto.
    + assert (Z : takeN (limit - lenN got) (rem_of s1) = []).
      { rewrite R in K at 1. rewrite T1 in K. apply (f_equal (@length byte)) in K. rewrite app_length in K. destruct (takeN _ _); [reflexivity|cbn in K; lia]. }
      rewrite Z in *. rewrite app_nil_r. apply sv_end. exact S.
  - mstep H as x s1 E; try discriminate. mstep H as u s2 E2; try discriminate. unfold rdop in E. destruct (rd_peek _ (p_rd s)) as [y r1] eqn:EP. injection E as <- <-.
    unfold rd_peek in EP. destruct (Io.r1 _ _ _) as [[z rem'] sc'] eqn:ER. injection EP as <- <-. destruct (r1_more f _ _ _ _ _ _ ER M) as [M1 K].
    set (used := N.min _ _) in *.
    assert (X : exists d, d = N.of_nat (clip used (rem_of s)) /\ rem_of s2 = dropN d (rem_of s) /\ rmay f s2).
    { unfold rdop, rd_drop in E2. cbn [p_rd set_rd with_stream r_stream s_rem s_sched s_off s_seeks r_pos] in E2. cbv zeta in E2. unfold advance in E2. destruct (_ <? _)%N; [|discriminate]. injection E2 as <- <-.
      eexists. split; [reflexivity|]. unfold rem_of. cbn [p_rd set_rd with_stream r_stream s_rem s_sched]. split; [rewrite dropN_skipn, Nnat.Nat2N.id; reflexivity|exact M1]. }
    destruct X as (d & Ed & R2 & M2). destruct (IH _ _ _ _ _ H M2) as (left & S & R1). exists left. fold (rem_of s) in ER, K. destruct z as [e|got].
    + assert (U0 : used = 0%N) by (unfold used; lia). rewrite U0 in *. unfold clip in Ed. assert (d = 0%N) as -> by lia. rewrite dropN_0 in R2. rewrite R2, N.sub_0_r in *. split; [|exact R1].
      destruct K as (_ & _ & [->|[F [c ->]]]); [apply sv_buf_interrupted|apply sv_buf_fails with c]; auto.
    + destruct K as (R & L & Z). assert (EU : used = N.of_nat (Nat.min (amt (inr got)) (length got))) by (unfold used, lenN; lia).
      assert (LG : (lenN got <= limit)%N) by (unfold lenN; unfold peek_len, clip in L; destruct (limit =? 0)%N eqn:E0; [lia|]; apply N.eqb_neq in E0; lia).
      assert (LR : (lenN got <= lenN (rem_of s))%N) by (rewrite R, lenN_app; lia).
      assert (d = used) as -> by (rewrite Ed; unfold clip, lenN in *; lia).
      assert (UG : (used <= lenN got)%N) by (unfold lenN; lia).
      destruct (taken got rem' limit LG) as [T1 T2].
      assert (TU : takeN limit (rem_of s) = takeN used (rem_of s) ++ takeN (limit - used) (rem_of s2) /\ dropN limit (rem_of s) = dropN (limit - used) (rem_of s2)).
      { rewrite R2. pose proof (takeN_dropN _ used (rem_of s)) as TD. assert (LU : lenN (takeN used (rem_of s)) = used) by (rewrite lenN_takeN; lia).
        rewrite <- TD at 1 4. rewrite <- LU at 3 6. destruct (taken (takeN used (rem_of s)) (dropN used (rem_of s)) limit) as [A1 A2]; [lia|]. rewrite LU in *. split; assumption. }
      destruct TU as [TU1 TU2]. split; [|rewrite TU2; exact R1]. rewrite R, T1. apply sv_buf.
      * intros ->. destruct (Z eq_refl) as [Z0|Z0]; [|rewrite Z0, takeN_firstn, firstn_nil; reflexivity].
        unfold peek_len in Z0. destruct (limit =? 0)%N eqn:E0; [|lia]. apply N.eqb_eq in E0. subst limit. rewrite takeN_firstn. reflexivity.
      * rewrite <- T1, <- R. replace (skipn _ (takeN limit (rem_of s))) with (takeN (limit - used) (rem_of s2)); [exact S|].
        rewrite TU1. rewrite skipn_app. assert (LU : length (takeN used (rem_of s)) = N.to_nat used) by (rewrite takeN_firstn, firstn_length; unfold lenN in *; lia).
        rewrite skipn_all2 by lia. rewrite LU. replace (_ - _)%nat with 0%nat by lia. reflexivity.
Qed.

Section WithEnv.
Context {env : Env}.

(** A successful load gets to the type-specific part behind the type code. *)
Lemma reach : forall O b (ld : loader O) s a junk code bs t w s', p_attrs s = Some a -> a_next a = (pos_of s + lenN junk)%N ->
  rem_of s = junk ++ code :: bs -> type_of_code code = Some t -> load_next_gen b ld s = (Ok (Some w), s') ->
  exists start idx s4, rem_of s4 = bs /\ p_attrs s4 <> None /\ load_next_impl b t ld start idx s4 = (Ok w, s').
Proof.
  intros O b ld s a junk code bs t w s' Ha Hx E Ht G. apply load_next_shape in G; [|discriminate].
  destruct (p_health s) eqn:Hh; [|destruct G; discriminate|destruct G; discriminate].
  destruct G as (a0 & Ea & r0 & s1 & Eb & Hp0 & -> & ->). rewrite Ha in Ea. injection Ea as <-.
  unfold load_body, read_next_attr_type, get_attrs, reader_pos in Eb. rewrite !bind_assoc, bind_gets, Ha, bind_ret in Eb. cbv beta in Eb.
  destruct (a_rest a =? 0)%N. { rewrite bind_ret in Eb. discriminate. }
  rewrite bind_assoc, bind_gets, bind_assoc in Eb. mstep Eb as u s2 E2; try discriminate.
  assert (SK : exists d, rem_of s2 = dropN d (rem_of s) /\ (forall c l, rem_of s2 = c :: l -> d = lenN junk)).
  { fold (pos_of s) in E2. destruct (pos_of s <? a_next a)%N eqn:El.
    - cbn [when] in E2. unfold m_skip_to, rdop, bind in E2. destruct (skip_to (a_next a) (p_rd s)) as [o r'] eqn:Es. pose proof Es as Es'. apply skip_to_spec in Es.
      destruct o as [[e|]|]; try discriminate. injection E2 as _ <-. destruct Es as [_ Es]. destruct (r_seekable (p_rd s)) eqn:Ek.
      + destruct Es as (D2 & _). exists (lenN junk). unfold rem_of, pos_of in *. split; [|reflexivity]. rewrite Hx in D2.
        replace (r_pos (p_rd s) + lenN junk - r_pos (p_rd s))%N with (lenN junk) in D2 by lia. exact D2.
      + unfold skip_to, skip_distance in Es'. fold (pos_of s) in Es'. apply N.ltb_lt in El.
        assert (X : (a_next a <? pos_of s)%N = false) by (apply N.ltb_ge; lia). rewrite X, Ek in Es'. unfold skip_distance_plain in Es'.
        destruct (rte _ _ _) as [[[ee got] rem'] sc'] eqn:Er. apply rte_gen in Er. injection Es' as -> <-.
        destruct Er as (R1 & R2 & R3). specialize (R3 eq_refl). exists (lenN got).
        unfold rem_of, pos_of in *. cbn [p_rd set_rd r_stream with_stream s_rem]. split.
        { rewrite R1. symmetry. apply dropN_app_len. }
        intros c l El'. subst rem'. rewrite R3, lenN_takeN. rewrite E, lenN_app. lia.
    - injection E2 as _ <-. apply N.ltb_ge in El. exists 0%N. split; [rewrite dropN_0; reflexivity|]. intros; lia. }
  destruct SK as (d & D2 & D3). unfold read_attr_type in Eb. rewrite !bind_assoc in Eb. mstep Eb as c s3 E3; try discriminate.
  pose proof (parse_u8_bytes _ _ _ E3) as (B3 & _ & _). fold (rem_of s2) (rem_of s3) in B3.
  specialize (D3 _ _ B3). subst d. rewrite D2, E, dropN_app_len in B3. injection B3 as B3 B4. subst c.
  rewrite Ht, bind_ret, bind_assoc, bind_modify, bind_ret in Eb. mstep Eb as v s5 E5; try discriminate. injection Eb as <- <-.
  do 2 eexists. exists (set_attrs (Some (mkAttrs (a_total a) (a_rest a - 1)%N (a_next a))) s3). split; [symmetry; exact B4|]. split; [discriminate|exact E5].
Qed.

Lemma run_rd_noerr : forall O (p : rdprog O) limit s e s', run_rd p limit s = (Err e, s') -> False.
Proof.
  intros O p. induction p as [r0|n k IH|n k IH|k IH|amt k IH]; intros lim t e t' E; cbn [run_rd] in E; unfold reader_pos, rdop in E; try discriminate.
  - mstep E as x t1 F; [eapply IH; eauto| |discriminate]. destruct (rd_once _ _) as [[y|] r1]; discriminate.
  - destruct (_ <=? _)%N; rewrite bind_gets in E; (mstep E as x t1 F; [rewrite bind_gets in E; eapply IH; eauto| |discriminate]).
    + destruct (rd_exact _ _) as [[y|] r1]; discriminate.
    + destruct (rd_to_end _ _) as [[y|] r1]; discriminate.
  - rewrite bind_gets in E; (mstep E as x t1 F; [rewrite bind_gets in E; eapply IH; eauto| |discriminate]). destruct (rd_to_end _ _) as [[y|] r1]; discriminate.
  - mstep E as x t1 F; [|destruct (rd_peek _ _); discriminate|discriminate]. mstep E as u t2 F2; [eapply IH; eauto| |discriminate]. destruct (rd_drop _ _) as [[y|] r1]; discriminate.
Qed.

Lemma special_serves : forall O f (ld : N -> rdprog O) s len rest r s', rem_of s = le_enc 4 len ++ rest -> u_ok 4 len ->
  load_special ld s = (r, s') -> rmay f s ->
  match r with
  | Ok w => exists left, serves f (takeN len rest) (ld len) (inr w) left /\ rem_of s' = left ++ dropN len rest
  | Err e => f = false -> exists left, serves f (takeN len rest) (ld len) (inl e) left /\ rem_of s' = left ++ dropN len rest
  | Panic => True
  end.
Proof.
  intros O f ld s len rest r s' E U H M. unfold load_special in H. mstep H as l s1 E1.
  - assert (X : l = len /\ rem_of s1 = rest /\ rmay f s1).
    { unfold parse_uint in E1. mstep E1 as bs s2 E2; try discriminate. injection E1 as <- <-. unfold read_exact, try_read in E2. mstep E2 as x s3 E3; try discriminate.
      destruct (exact_more f _ _ _ _ E3 M) as (M3 & K & _). destruct x as [e|got]; [discriminate|]. injection E2 as <- <-. destruct K as [K1 K2]. rewrite E in K1.
      assert (got = le_enc 4 len) as ->. { apply (f_equal (firstn 4)) in K1. rewrite !firstn_len_app in K1 by (rewrite ?le_enc_length; auto). auto. }
      split; [apply le_dec_enc; exact U|]. split; [|exact M3]. apply app_inv_head in K1. auto. }
    destruct X as (-> & R1 & M1). mstep H as u s2 E2; [|subst r|subst r; exact I].
    + assert (R2 : p_rd s2 = p_rd s1).
      { unfold update_next_attr_start_offset, get_attrs, reader_pos in E2. rewrite bind_gets in E2. unfold bind at 1 in E2. rewrite bind_gets in E2.
        destruct (p_attrs s1); cbn in E2; [|discriminate]. destruct (_ <? _)%N; [|discriminate]. injection E2 as <- <-. reflexivity. }
      assert (M2 : rmay f s2) by (unfold rmay in *; rewrite R2; exact M1). assert (RR : rem_of s2 = rest) by (unfold rem_of in *; rewrite R2; exact R1).
      mstep H as v s3 E3; [|subst r|subst r; exact I].
      * destruct (run_serves _ f _ _ _ _ _ E3 M2) as (left & S & R3). rewrite RR in *. destruct v as [e|w]; injection H as <- <-; [intros _|]; eauto.
      * exfalso. eapply run_rd_noerr; eauto.
    + unfold update_next_attr_start_offset, get_attrs, reader_pos in E2. rewrite bind_gets in E2. unfold bind at 1 in E2. rewrite bind_gets in E2.
      destruct (p_attrs s1); cbn in E2; [|discriminate]. destruct (_ <? _)%N; discriminate.
  - subst r. intros ->. exfalso. unfold parse_uint in E1. mstep E1 as bs s2 E2; try discriminate. unfold read_exact, try_read in E2. mstep E2 as x s3 E3; try discriminate.
    + destruct (exact_more false _ _ _ _ E3 M) as (M3 & K & _). destruct x as [e9|got]; [|discriminate]. destruct K as (lost & K1 & K2 & [[_ K3]|[K3 _]]); [|discriminate].
      rewrite K3, app_nil_r in K1. rewrite E in K1. rewrite <- K1, app_length, le_enc_length in K2. lia.
    + unfold rdop in E3. destruct (rd_exact _ _) as [[y|] r1]; discriminate.
  - subst r. exact I.
Qed.

(** The loader method that is called for an attribute of type [t]. *)
Definition called {O} (buffered : bool) (t : atype) (ld : loader O) : N -> rdprog O :=
  match t, buffered with
  | TString, false => ld_str ld
  | TString, true => ld_str_buf ld
  | _, false => ld_bin ld
  | _, true => ld_bin_buf ld
  end.

(** Whatever the source does: if the load of the next attribute, [code, length, ...] after
    [junk] unread bytes, succeeds, then its value is what the loader makes of a well-behaved
    (though possibly failing) reader over the declared bytes, as far as the stream has
    them. *)
Theorem C64_reader : forall O b (ld : loader O) s a junk t len rest w s',
  t = TBinary \/ t = TString -> u_ok 4 len ->
  p_attrs s = Some a -> a_next a = (pos_of s + lenN junk)%N ->
  rem_of s = junk ++ spec_code t :: le_enc 4 len ++ rest ->
  run_op (load_op b ld) s = (Ok (BAttr (Some w)), s') ->
  exists left, serves true (takeN len rest) (called b t ld len) (inr w) left /\
    rem_of s' = left ++ dropN len rest.
Proof.
  intros O b ld s a junk t len rest w s' Ht U Ha Hx E H. rewrite load_op_run in H by congruence. unfold bind in H.
  destruct (load_next_gen b ld s) as [[v|e|] s1] eqn:E1; try discriminate. injection H as -> ->.
  destruct (reach _ _ _ _ _ _ _ _ _ _ _ Ha Hx E (type_code_spec t) E1) as (start & idx & s4 & R4 & _ & E4).
  assert (K : load_special (called b t ld) s4 = (Ok w, s')) by (destruct Ht; subst t; destruct b; exact E4).
  exact (special_serves _ true _ _ _ _ _ _ R4 U K (or_introl eq_refl)).
Qed.

(** If the source does not fail, the loader is run on a well-behaved reader over the declared
    bytes that does not fail, and its result, value or error, is the result of the load. *)
Theorem C64_reader_total : forall O b (ld : loader O) s n t len rest x s',
  t = TBinary \/ t = TString -> u_ok 4 len ->
  next_at s n (spec_code t :: le_enc 4 len ++ rest) -> (1 <= n)%N ->
  run_op (load_op b ld) s = (x, s') -> x <> Panic ->
  exists r left, serves false (takeN len rest) (called b t ld len) r left /\ rem_of s' = left ++ dropN len rest /\
    match r with
    | inr w => x = Ok (BAttr (Some w))
    | inl e => exists p, x = Err (and_position e p)
    end.
Proof.
  intros O b ld s n t len rest x s' Ht U H H1 HR HP. rewrite load_op_run in HR by (eapply next_at_attrs; eauto). pose proof H as (Hh & _ & Hpos & _).
  destruct (next_at_load O b ld s n _ _ _ H H1 (type_code_spec _)) as (start & idx & s1 & a1 & T1 & A1 & Y1 & R1 & G).
  assert (Ex : load_next_impl b t ld start idx s1 = load_special (called b t ld) s1) by (destruct Ht; subst t; destruct b; reflexivity).
  destruct (load_special (called b t ld) s1) as [r s2] eqn:E2. rewrite Ex in G. pose proof (G _ _ eq_refl) as G2.
  assert (M1 : rmay false s1) by (right; apply Y1). pose proof (special_serves _ false _ _ _ _ _ _ R1 U E2 M1) as K. unfold bind in HR. destruct r as [w|e|].
  - rewrite G2 in HR. injection HR as <- <-. destruct K as (left & K1 & K2). exists (inr w), left. auto.
  - destruct (K eq_refl) as (left & K1 & K2). exists (inl e), left. split; [exact K1|].
    assert (Q : position_of s2 <> None).
    { assert (Q : quietl s1 (snd (load_special (called b t ld) s1))) by (apply load_special_quiet; rewrite E2; discriminate). rewrite E2 in Q. destruct Q as [Q _]. cbn [snd] in Q. apply (position_same s1).
      - apply Q.
      - apply Q.
      - rewrite T1. apply (position_same s); [reflexivity|reflexivity|exact Hpos]. }
    destruct (position_of s2) as [q|]; [|tauto]. destruct (G2 q eq_refl) as (p & G3). rewrite G3 in HR. injection HR as <- <-. split; [exact K2|]. eauto.
  - rewrite G2 in HR. injection HR as <- <-. congruence.
Qed.
End WithEnv.

(** ** Concrete cases *)
Module ReaderCases.

(** A loader that reads up to 2 bytes, then exactly 2, then looks at the buffer and takes one
    byte, then reads the rest, going on after a failure.  It keeps all bytes. *)
Definition got_of (r : ioerr + list byte) : list byte := match r with inl _ => [] | inr l => l end.
Definition picky : N -> rdprog (list byte * list byte * list byte * list byte) := fun _ =>
  RRead 2 (fun a => RExact 2 (fun b => RBuf (fun _ => 1) (fun c => RToEnd (fun d =>
    match d with
    | (None, l) => RRet (inr (got_of a, got_of b, firstn 1 (got_of c), l))
    | (Some _, l) => RToEnd (fun d' => RRet (inr (got_of a, got_of b, firstn 1 (got_of c), l ++ snd d')))
    end)))).
Definition picky_loader : loader (list byte * list byte * list byte * list byte) :=
  let no := inr ([], [], [], []) in
  mkLoader (fun _ => no) (fun _ => no) (fun _ => no) (fun _ => no) (fun _ => no) (fun _ => no)
    (fun _ => SRet no) (fun _ => SRet no) (fun _ => SRet no) (fun _ => SRet no) (fun _ => SRet no)
    picky picky picky picky.

Definition eight : list byte := [x01; x02; x03; x04; x05; x06; x07; x08].
Definition bin_doc : list byte := one_node 2 ([x52] ++ le_enc 4 8 ++ eight ++ [x43; x01]) (zeros 30).

(** Full reads up to the attribute's bytes; then a short read, and a [read_to_end] that gets
    one byte and fails. *)
Definition bumps : list ioact := repeat (AChunk 1000) 9 ++ [AChunk 1; AIntr; AChunk 1; AChunk 1; AChunk 3; AChunk 1; AFail 9].
Definition nowhere : pstate := mkP 7400 Running [] None 0 (mkReader (mkStream [] 0 [] []) 0 true) None [] None.
Definition s_bumps : pstate := Eval vm_compute in match run_from release bin_doc bumps true [@ONext aval] with Some (_, s) => s | None => nowhere end.
Definition s_calm : pstate := Eval vm_compute in match run_from release bin_doc (removelast bumps) true [@ONext aval] with Some (_, s) => s | None => nowhere end.

(** The hypotheses of [C64_reader]: in spite of the failure the loader gets the 8 bytes. *)
Example reader_ex : exists p rs a s', opened bin_doc bumps [] true None p /\ run_ops (env := release) [@ONext aval] p = (rs, s_bumps) /\
  p_attrs s_bumps = Some a /\ a_next a = (pos_of s_bumps + lenN (@nil byte))%N /\
  rem_of s_bumps = [] ++ spec_code TBinary :: le_enc 4 8 ++ eight ++ [x43; x01] ++ zeros 30 /\
  run_op (env := release) (load_op false picky_loader) s_bumps =
    (Ok (BAttr (Some ([x01], [x02; x03], [x04], [x05; x06; x07; x08]))), s').
Proof.
  unfold opened. do 4 eexists. split; [eexists; split; [vm_compute; reflexivity|reflexivity]|]. split; [vm_compute; reflexivity|].
  split; [vm_compute; reflexivity|]. split; [vm_compute; reflexivity|]. split; [vm_compute; reflexivity|]. vm_compute. reflexivity.
Qed.
(** The hypotheses of [C64_reader_total]. *)
Example reader_total_ex : exists p rs s', opened bin_doc (removelast bumps) [] true None p /\ run_ops (env := release) [@ONext aval] p = (rs, s_calm) /\
  next_at s_calm 2 (spec_code TBinary :: le_enc 4 8 ++ eight ++ [x43; x01] ++ zeros 30) /\
  run_op (env := release) (load_op true picky_loader) s_calm =
    (Ok (BAttr (Some ([x01], [x02; x03], [x04], [x05; x06; x07; x08]))), s').
Proof.
  unfold opened. do 3 eexists. split; [eexists; split; [vm_compute; reflexivity|reflexivity]|]. split; [vm_compute; reflexivity|].
  split.
  - unfold next_at. split; [reflexivity|]. split; [split; [split; reflexivity|vm_compute; reflexivity]|]. split; [vm_compute; discriminate|].
    exists (mkAttrs 2 2 41), []. split; [vm_compute; reflexivity|]. split; [vm_compute; reflexivity|]. split; vm_compute; reflexivity.
  - vm_compute. reflexivity.
Qed.
(** [serves] is not trivial: without failures [read_to_end] gives exactly the bytes left. *)
Example serves_tight : forall bs r left, serves false bs (RToEnd (fun d => RRet (inr (snd d)))) r left -> r = inr bs.
Proof.
  intros bs r left H. inversion H; subst; [|discriminate].
  match goal with K : serves _ _ (RRet _) _ _ |- _ => inversion K; subst; reflexivity end.
Qed.
End ReaderCases.
