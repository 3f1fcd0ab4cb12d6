(** Loading attributes from any stream content, seekable or plain reader. *)
Require Import Coq.Lists.List Coq.NArith.NArith Coq.ZArith.ZArith Coq.Bool.Bool Coq.micromega.Lia.
Require Import Coq.Init.Byte.
Require Import ZifyBool ZifyNat ZifyN.
Require Import Verif.Base Verif.BaseFacts Verif.Utf8 Verif.Types Verif.Io Verif.IoFacts Verif.Parser Verif.MonadFacts Verif.Zlib Verif.Moves Verif.Loaders Verif.Spec Verif.ReadFacts Verif.AttrLoad.
Import ListNotations.
Ltac Zify.zify_post_hook ::= Z.div_mod_to_equations.
Open Scope monad_scope.

(** The client holds the attributes of a node on a running parser, [n] of them are still to be
    loaded, and the next one starts at the bytes [bs] of the stream (after the [junk] of the
    previous one that its loader left unread). Reads and seeks do not fail. *)
Definition next_at (s : pstate) (n : N) (bs : list byte) : Prop :=
  p_health s = Running /\ ready s /\ position_of s <> None /\
  exists a junk, p_attrs s = Some a /\ a_rest a = n /\ rem_of s = junk ++ bs /\
    a_next a = (pos_of s + lenN junk)%N.

Section WithEnv.
Context {env : Env}.

Lemma skip_any : forall n s, ready s -> (pos_of s <= n)%N -> (n - pos_of s <= lenN (rem_of s))%N ->
  exists s', m_skip_to n s = (Ok tt, s') /\ s' = set_rd (p_rd s') s /\ ready s' /\
    rem_of s' = dropN (n - pos_of s) (rem_of s) /\ (pos_of s' <= n)%N.
Proof.
  intros n s Hy H1 H2. destruct (r_seekable (p_rd s)) eqn:Es.
  - destruct (skip_mv n s Hy Es H1 H2) as (s' & E & M). exists s'. split; [exact E|]. split; [apply M|].
    split; [eapply moved_ready; eauto|]. split; [apply moved_rem'; exact M|]. rewrite (moved_pos _ _ _ M). lia.
  - destruct Hy as [[Hc1 Hc2] Hr]. unfold m_skip_to, rdop, bind, skip_to, skip_distance, skip_distance_plain.
    fold (pos_of s). assert (E : (n <? pos_of s)%N = false) by (apply N.ltb_ge; exact H1). rewrite E, Es.
    destruct (rte_nofail (s_sched (r_stream (p_rd s))) (s_rem (r_stream (p_rd s))) (n - pos_of s) Hc1) as (sc' & Hs & Er).
    rewrite Er. eexists. split; [reflexivity|]. split; [reflexivity|]. split; [|split; [reflexivity|exact H1]].
    split; [split; assumption|]. unfold room, rem_of, pos_of in *. cbn.
    rewrite lenN_dropN. lia.
Qed.

Lemma next_at_type : forall s n code bs t, next_at s n (code :: bs) -> (1 <= n)%N -> type_of_code code = Some t ->
  exists s1 a1, read_next_attr_type s = (Ok (Some t), s1) /\ s1 = set_attrs (Some a1) (set_rd (p_rd s1) s) /\
    a_rest a1 = (n - 1)%N /\ ready s1 /\ rem_of s1 = bs /\ (pos_of s1 + lenN bs <= pos_of s + lenN (rem_of s))%N.
Proof.
  intros s n code bs t (Hh & Hy & Hp & a & junk & Ha & Hn & E & Hx) H1 Ht.
  unfold read_next_attr_type, get_attrs. unfold bind at 1. rewrite bind_gets, Ha. cbn [ret].
  assert (E0 : (a_rest a =? 0)%N = false) by (apply N.eqb_neq; lia). rewrite E0.
  unfold reader_pos. rewrite bind_gets. fold (pos_of s).
  assert (S : exists s1, when (pos_of s <? a_next a)%N (m_skip_to (a_next a)) s = (Ok tt, s1) /\
            s1 = set_rd (p_rd s1) s /\ ready s1 /\ rem_of s1 = code :: bs /\ (pos_of s1 <= a_next a)%N).
  { destruct (pos_of s <? a_next a)%N eqn:El.
    - destruct (skip_any (a_next a) s Hy) as (s1 & E1 & E2 & E3 & E4 & E5); [lia|rewrite E, lenN_app; lia|].
      exists s1. split; [exact E1|]. split; [exact E2|]. split; [exact E3|]. split; [|exact E5]. rewrite E4, E.
      replace (a_next a - pos_of s)%N with (lenN junk) by lia. apply dropN_app_len.
    - exists s. apply N.ltb_ge in El. assert (junk = []) as ->.
      { destruct junk; [reflexivity|]. rewrite lenN_cons in Hx. lia. }
      split; [reflexivity|]. split; [destruct s; reflexivity|]. split; [exact Hy|]. split; [exact E|lia]. }
  destruct S as (s1 & E1 & T1 & Y1 & R1 & B1). rewrite (bind_ok _ _ _ _ _ _ _ E1). unfold read_attr_type. rewrite bind_assoc.
  destruct (read_exact_mv 1 s1 [code] bs Y1 R1 eq_refl) as (s2 & E2 & M2 & R2 & Y2).
  unfold parse_u8. rewrite bind_assoc, (bind_ok _ _ _ _ _ _ _ E2), bind_ret. cbn [hd]. rewrite Ht, bind_ret, bind_modify.
  do 2 eexists. split; [reflexivity|]. split; [|split; [|split; [exact Y2|split; [exact R2|]]]].
  - destruct M2 as (M2 & _). rewrite M2, T1. reflexivity.
  - cbn. lia.
  - change (pos_of (set_attrs _ s2)) with (pos_of s2). rewrite (moved_pos _ _ _ M2), E, lenN_app, lenN_cons. lia.
Qed.

(** What a load gives, from what the type-specific part gives. *)
Lemma next_at_load' : forall O b (ld : loader O) s n code bs t, next_at s n (code :: bs) -> (1 <= n)%N -> type_of_code code = Some t ->
  exists start idx s1 a1, s1 = set_attrs (Some a1) (set_rd (p_rd s1) s) /\ a_rest a1 = (n - 1)%N /\ ready s1 /\ rem_of s1 = bs /\ (pos_of s1 + lenN bs <= pos_of s + lenN (rem_of s))%N /\
    forall r s2, load_next_impl b t ld start idx s1 = (r, s2) ->
      match r with
      | Ok v => load_next_gen b ld s = (Ok (Some v), s2)
      | Err e => forall q, position_of s2 = Some q -> exists p, load_next_gen b ld s = (Err (and_position e p), set_health (Aborted p) s2)
      | Panic => load_next_gen b ld s = (Panic, s2)
      end.
Proof.
  intros O b ld s n code bs t H H1 Ht. pose proof H as (Hh & Hy & Hp & a & junk & Ha & Hn & E & Hx).
  destruct (next_at_type s n code bs t H H1 Ht) as (s1 & a1 & E1 & T1 & A1 & Y1 & R1 & B1).
  exists (a_next a), (a_total a - a_rest a)%N, s1, a1. do 5 (split; [assumption|]). intros r s2 E2.
  assert (G : load_next_gen b ld s = match r with
      | Ok v => (Ok (Some v), s2) | Panic => (Panic, s2)
      | Err e => (let* p := attr_position (a_next a) (a_total a - a_rest a) in modify (set_health (Aborted p)) ;; throw (and_position e p)) s2 end).
  { unfold load_next_gen, do_with_health_check, ensure_continuable. unfold bind at 1. rewrite Hh.
    unfold get_attrs. unfold bind at 1. rewrite bind_gets, Ha. cbn [ret].
    unfold bind at 1. unfold try_. rewrite (bind_ok _ _ _ _ _ _ _ E1). unfold bind at 1. rewrite E2. destruct r; reflexivity. }
  rewrite G. destruct r as [v|e|]; [reflexivity| |reflexivity].
  intros q Hq. unfold attr_position. rewrite bind_assoc. unfold bind at 1. unfold position. rewrite Hq. cbn.
  eexists. reflexivity.
Qed.

Lemma next_at_load : forall O b (ld : loader O) s n code bs t, next_at s n (code :: bs) -> (1 <= n)%N -> type_of_code code = Some t ->
  exists start idx s1 a1, s1 = set_attrs (Some a1) (set_rd (p_rd s1) s) /\ a_rest a1 = (n - 1)%N /\ ready s1 /\ rem_of s1 = bs /\
    forall r s2, load_next_impl b t ld start idx s1 = (r, s2) ->
      match r with
      | Ok v => load_next_gen b ld s = (Ok (Some v), s2)
      | Err e => forall q, position_of s2 = Some q -> exists p, load_next_gen b ld s = (Err (and_position e p), set_health (Aborted p) s2)
      | Panic => load_next_gen b ld s = (Panic, s2)
      end.
Proof.
  intros O b ld s n code bs t H H1 Ht. destruct (next_at_load' O b ld s n code bs t H H1 Ht) as (x & y & s1 & a1 & T1 & A1 & Y1 & R1 & _ & G).
  exists x, y, s1, a1. auto.
Qed.

(** After the type-specific part has moved inside the attribute, the next attribute starts
    right after it. *)
Lemma position_same : forall s s', p_stack s' = p_stack s -> p_top s' = p_top s -> position_of s <> None -> position_of s' <> None.
Proof. intros s s' E1 E2. unfold position_of. rewrite E1, E2. destruct (p_stack s); [discriminate|]. destruct (p_top s =? 0)%N; [tauto|discriminate]. Qed.

Lemma amoved_next_at : forall s n s1 a1 body rest m s2, 
  p_health s = Running -> position_of s <> None ->
  s1 = set_attrs (Some a1) (set_rd (p_rd s1) s) -> a_rest a1 = n -> ready s1 -> rem_of s1 = body ++ rest ->
  (m <= lenN body)%N -> amoved (mkAttrs (a_total a1) (a_rest a1) (pos_of s1 + lenN body)) m s1 s2 -> next_at s2 n rest.
Proof.
  intros s n s1 a1 body rest m s2 Hh Hp T1 A1 Y1 R1 Hm (t & Mt & ->).
  pose proof Mt as (Et & _). split; [|split; [|split]].
  - cbn. rewrite Et, T1. exact Hh.
  - change (ready t). eapply moved_ready; eauto. rewrite R1, lenN_app. lia.
  - apply (position_same s); [cbn; rewrite Et, T1; reflexivity|cbn; rewrite Et, T1; reflexivity|exact Hp].
  - do 2 eexists. split; [reflexivity|]. split; [exact A1|].
    change (rem_of (set_attrs _ t)) with (rem_of t). change (pos_of (set_attrs _ t)) with (pos_of t).
    rewrite (moved_rem' _ _ _ Mt), R1, dropN_app_le by lia. split; [reflexivity|]. cbn.
    rewrite (moved_pos _ _ _ Mt), lenN_dropN. lia.
Qed.

Lemma next_at_none : forall O b (ld : loader O) s bs, next_at s 0 bs -> load_next_gen b ld s = (Ok None, s).
Proof.
  intros O b ld s bs (Hh & Hy & Hp & a & junk & Ha & Hn & E & Hx). unfold load_next_gen, do_with_health_check, ensure_continuable. unfold bind at 1. rewrite Hh.
  unfold get_attrs. unfold bind at 1. rewrite bind_gets, Ha. cbn [ret].
  unfold bind at 1. unfold try_, read_next_attr_type, get_attrs. unfold bind at 1. unfold bind at 1. rewrite bind_gets, Ha. cbn [ret]. rewrite Hn. reflexivity.
Qed.

Context (HZ : zlib_roundtrip env).

(** A well-formed attribute, any loader that succeeds. *)
Lemma next_at_step : forall O b (ld : loader O) s n at0 rest v s', next_at s n (enc_attr at0 ++ rest) -> (1 <= n)%N -> attr_ok at0 ->
  load_next_gen b ld s = (Ok v, s') -> next_at s' (n - 1) rest.
Proof.
  intros O b ld s n at0 rest v s' H H1 Hok HL. pose proof H as (Hh & _ & Hp & _). rewrite enc_attr_split in H. cbn [app] in H.
  destruct (next_at_load O b ld s n _ _ _ H H1 (type_code_spec _)) as (start & idx & s1 & a1 & T1 & A1 & Y1 & R1 & G).
  destruct (load_next_impl b (aval_type (at_val at0)) ld start idx s1) as [r s2] eqn:E2. pose proof (G _ _ eq_refl) as G2.
  assert (P1 : p_attrs s1 = Some a1) by (rewrite T1; reflexivity).
  assert (NP : position_of s2 = None -> r = Panic).
  { intros Hq. destruct r as [x|e|]; [| |reflexivity];
      (destruct (load_impl_ok HZ O b ld at0 start idx s1 a1 rest _ s2 Y1 P1 R1 Hok E2 ltac:(discriminate)) as (m & Hm & t & Mt & ->);
       exfalso; revert Hq; pose proof Mt as (Et & _); apply (position_same s); [cbn; rewrite Et, T1; reflexivity|cbn; rewrite Et, T1; reflexivity|exact Hp]). }
  destruct r as [x|e|].
  - rewrite G2 in HL. injection HL as <- <-.
    destruct (load_impl_ok HZ O b ld at0 start idx s1 a1 rest _ s2 Y1 P1 R1 Hok E2 ltac:(discriminate)) as (m & Hm & M).
    eapply amoved_next_at; eauto.
  - destruct (position_of s2) as [q|]; [|specialize (NP eq_refl); discriminate]. destruct (G2 q eq_refl) as (p & G3). rewrite G3 in HL. discriminate.
  - rewrite G2 in HL. discriminate.
Qed.

Lemma next_at_direct : forall b s n at0 rest, next_at s n (enc_attr at0 ++ rest) -> (1 <= n)%N -> attr_ok at0 ->
  exists s', load_next_gen b direct_loader s = (Ok (Some (at_val at0)), s').
Proof.
  intros b s n at0 rest H H1 Hok. rewrite enc_attr_split in H. cbn [app] in H.
  destruct (next_at_load aval b direct_loader s n _ _ _ H H1 (type_code_spec _)) as (start & idx & s1 & a1 & T1 & A1 & Y1 & R1 & G).
  destruct (load_impl_direct HZ b at0 start idx s1 a1 rest Y1) as (s2 & E2 & _); [rewrite T1; reflexivity|exact R1|exact Hok|].
  exists s2. apply (G _ _ E2).
Qed.

End WithEnv.
