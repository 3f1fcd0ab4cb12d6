(** No panics: an invariant under which every panic branch of the parser is dead. *)
Require Import Coq.Lists.List Coq.NArith.NArith Coq.ZArith.ZArith Coq.Bool.Bool Coq.micromega.Lia.
Require Import ZifyBool ZifyNat ZifyN.
Require Import Verif.Base Verif.BaseFacts Verif.Utf8 Verif.Types Verif.Io Verif.IoFacts Verif.Parser Verif.MonadFacts Verif.ParserSteps Verif.ParserShape Verif.SpecHist Verif.ParserHist Verif.ParserPos.
Import ListNotations.
Ltac Zify.zify_post_hook ::= Z.div_mod_to_equations.

(** The cached position fits, and nothing that can still be read makes it overflow. *)
Definition rdok (r : reader) : Prop :=
  (r_pos r < pow2_64)%N /\ (s_rem (r_stream r) = [] \/ (r_pos r + lenN (s_rem (r_stream r)) <= pow2_63)%N).

Lemma rdok_room : forall r, rdok r -> (r_pos r + lenN (s_rem (r_stream r)) < pow2_64)%N.
Proof.
  intros r [A [B|B]]; [rewrite B; unfold lenN; cbn [length]; lia | unfold pow2_63, pow2_64 in *; lia].
Qed.

Lemma rdok_moved : forall r r' d p, rdok r -> rd_moved d p r r' -> (p <= d)%N ->
  (r_pos r + p < pow2_64)%N -> rdok r'.
Proof.
  intros r r' d p [A B] (M1 & M2 & M3 & M4) Hp Hlt. unfold rdok. rewrite M3, M1. split; [exact Hlt|].
  destruct (N.le_gt_cases (lenN (s_rem (r_stream r))) d) as [Hd|Hd].
  - left. apply dropN_all. exact Hd.
  - right. rewrite lenN_dropN. destruct B as [B|B]; [|lia].
    rewrite B in Hd. unfold lenN in Hd. cbn in Hd. lia.
Qed.

Lemma rdok_low : forall r r' n, rdok r -> rd_moved n n r r' -> (1 <= n)%N -> (n <= lenN (s_rem (r_stream r)))%N ->
  (r_pos r' <= pow2_63)%N.
Proof.
  intros r r' n [A B] (M1 & M2 & M3 & M4) Hn Hle. rewrite M3. destruct B as [B|B]; [|lia].
  rewrite B in Hle. unfold lenN in Hle. cbn in Hle. lia.
Qed.

Section WithEnv.
Context {env : Env}.

Definition noded (n : started) : Prop := (sn_end n < pow2_64)%N /\ (sn_attrs_end n < pow2_64)%N.

Record inv (s : pstate) : Prop := mkInv {
  i_rd : rdok (p_rd s);
  i_top : p_stack s <> [] -> (1 <= p_top s)%N;
  i_stack : Forall noded (p_stack s);
  i_attrs : forall a, p_attrs s = Some a -> (a_next a < pow2_64)%N;
  i_last : p_health s = Running -> p_last s <> Some KEndFbx
}.

Definition low (s : pstate) : Prop := (rpos s <= pow2_63)%N.

Lemma inv_set_rd : forall s r, inv s -> rdok r -> inv (set_rd r s).
Proof. intros s r [A B C D E] H. constructor; auto. Qed.
Lemma inv_set_log : forall s l, inv s -> inv (set_log l s).
Proof. intros s r [A B C D E]. constructor; auto. Qed.
Lemma inv_set_attrs : forall s a, inv s -> (forall x, a = Some x -> (a_next x < pow2_64)%N) -> inv (set_attrs a s).
Proof. intros s a [A B C D E] H. constructor; auto. Qed.

(** [keep m]: from [inv], [m] does not panic and restores [inv]. *)
Definition keep {A} (m : M A) : Prop := safe inv m (fun _ => inv) (fun _ => inv).

Lemma k_ret : forall A (a : A), keep (ret a).
Proof. intros. apply sf_ret. auto. Qed.
Lemma k_throw : forall A e, keep (@throw A e).
Proof. intros. apply sf_throw. auto. Qed.
Lemma k_bind : forall A B (m : M A) (f : A -> M B), keep m -> (forall a, keep (f a)) -> keep (bind m f).
Proof. intros A B m f H1 H2. eapply sf_bind; [exact H1 | exact H2]. Qed.
Lemma k_gets : forall A (f : pstate -> A), keep (gets f).
Proof. intros. apply sf_gets. auto. Qed.
Lemma k_try : forall A (m : M A), keep m -> keep (try_ m).
Proof. intros A m H. apply sf_try. exact H. Qed.
Lemma k_when : forall b m, keep m -> keep (when b m).
Proof. intros. apply sf_when; auto. Qed.
Lemma k_lift : forall A (r : perr + A), keep (lift r).
Proof. intros A [e|a]; [apply k_throw | apply k_ret]. Qed.
Lemma k_position : keep position.
Proof.
  intros s H. unfold position. destruct (position_of s) eqn:E; cbn; [exact H|].
  unfold position_of in E. destruct (p_stack s) eqn:Es; [discriminate|].
  destruct (p_top s =? 0)%N eqn:Et; [|discriminate]. apply N.eqb_eq in Et.
  destruct H as [_ B _ _]. rewrite Es in B. specialize (B ltac:(discriminate)). lia.
Qed.
Lemma k_warn : forall w p, keep (warn w p).
Proof.
  intros w p s H. unfold warn. destruct (p_handler s) as [h|]; [destruct (h _)|]; cbn; apply inv_set_log; exact H.
Qed.
Lemma k_reader_pos : keep reader_pos.
Proof. apply k_gets. Qed.
Lemma k_rdop : forall A (f : reader -> option A * reader),
  (forall r, rdok r -> match f r with (Some a, r') => rdok r' | (None, _) => False end) -> keep (rdop f).
Proof.
  intros A f H s Hs. unfold rdop. specialize (H (p_rd s) (i_rd _ Hs)).
  destruct (f (p_rd s)) as [[a|] r']; cbn; [apply inv_set_rd; auto | exact H].
Qed.

Lemma exact_ok : forall n r, rdok r -> match rd_exact n r with (Some a, r') => rdok r' | (None, _) => False end.
Proof.
  intros n r H. destruct (rd_exact n r) as [[[e|got]|] r'] eqn:E; apply rd_exact_spec in E.
  - destruct E as (d & _ & Hm & Hl & _). eapply rdok_moved; eauto. lia.
  - destruct E as (_ & _ & Hm & Hl). eapply rdok_moved; eauto. lia.
  - pose proof (rdok_room _ H). lia.
Qed.
Lemma to_end_ok : forall n r, rdok r -> match rd_to_end n r with (Some a, r') => rdok r' | (None, _) => False end.
Proof.
  intros n r H. destruct (rd_to_end n r) as [[[e got]|] r'] eqn:E; apply rd_to_end_spec in E.
  - destruct E as (_ & _ & Hm & Hl & _). eapply rdok_moved; eauto. lia.
  - pose proof (rdok_room _ H). lia.
Qed.
Lemma once_ok : forall n r, rdok r -> match rd_once n r with (Some a, r') => rdok r' | (None, _) => False end.
Proof.
  intros n r H. destruct (rd_once n r) as [[[e|got]|] r'] eqn:E; apply rd_once_spec in E.
  - destruct E as (Hm & _). eapply rdok_moved; eauto; [lia|]. destruct H. lia.
  - destruct E as (_ & _ & Hm & Hl). eapply rdok_moved; eauto. lia.
  - pose proof (rdok_room _ H). lia.
Qed.
Lemma drop_ok : forall n r, rdok r -> match rd_drop n r with (Some a, r') => rdok r' | (None, _) => False end.
Proof.
  intros n r H. destruct (rd_drop n r) as [[[]|] r'] eqn:E; apply rd_drop_spec in E.
  - destruct E as (d & _ & _ & _ & Hm & Hl). eapply rdok_moved; eauto. lia.
  - pose proof (rdok_room _ H). lia.
Qed.

Lemma k_try_read : forall n, keep (try_read n).
Proof. intros. apply k_rdop. apply exact_ok. Qed.
Lemma k_drop : forall n, keep (rdop (rd_drop n)).
Proof. intros. apply k_rdop. apply drop_ok. Qed.
Create HintDb keep.
Ltac keep_step :=
  first
    [ simple apply k_bind; [| intros ?]
    | simple apply k_ret | simple apply k_throw | simple apply k_gets | simple apply k_try
    | simple apply k_when | simple apply k_lift
    | match goal with |- keep (let '(_, _) := ?x in _) => destruct x end
    | match goal with |- keep (match ?x with _ => _ end) => destruct x end ].
Ltac k := repeat first [ solve [auto 2 with keep] | keep_step ].
Hint Resolve k_try_read k_drop k_position k_warn k_reader_pos : keep.

Lemma k_read_exact : forall n, keep (read_exact n).
Proof. intros. unfold read_exact. k. Qed.
Hint Resolve k_read_exact : keep.

(** Reading at least one byte leaves the position low. *)
Definition lows {A} (m : M A) : Prop := safe inv m (fun _ s => inv s /\ low s) (fun _ => inv).
Lemma lows_keep : forall A (m : M A), lows m -> keep m.
Proof. intros A m H. eapply sf_conseq; [exact H| | |]; auto. intros a s X; apply X. Qed.
Lemma read_exact_low : forall n, (1 <= n)%nat ->
  safe inv (read_exact n) (fun l s => (inv s /\ low s) /\ length l = n) (fun _ => inv).
Proof.
  intros n Hn s Hs. unfold read_exact, try_read, rdop, bind.
  destruct (rd_exact n (p_rd s)) as [[[e|got]|] r'] eqn:E.
  - cbn. pose proof (exact_ok n _ (i_rd _ Hs)) as X. rewrite E in X. apply inv_set_rd; auto.
  - cbn. pose proof (exact_ok n _ (i_rd _ Hs)) as X. rewrite E in X.
    apply rd_exact_spec in E. destruct E as (Hr & Hl & Hm & Hlt).
    split; [|exact Hl]. split; [apply inv_set_rd; auto|].
    unfold low, rpos. cbn. eapply rdok_low; [apply (i_rd _ Hs) | exact Hm | lia|].
    rewrite Hr, lenN_app. unfold lenN. lia.
  - pose proof (exact_ok n _ (i_rd _ Hs)) as X. rewrite E in X. contradiction.
Qed.
Lemma parse_uint_low : forall n, (1 <= n)%nat ->
  safe inv (parse_uint n) (fun v s => (inv s /\ low s) /\ (v < 2 ^ (8 * N.of_nat n))%N) (fun _ => inv).
Proof.
  intros n Hn. unfold parse_uint. eapply sf_bind; [apply read_exact_low; exact Hn|].
  intros l. apply sf_ret. intros s [H1 H2]. split; [exact H1|]. rewrite <- H2. apply (le_dec_bound l).
Qed.
Lemma parse_sint_low : forall n, (1 <= n)%nat -> lows (parse_sint n).
Proof.
  intros n Hn. unfold parse_sint. eapply sf_bind; [apply read_exact_low; exact Hn|].
  intros l. apply sf_ret. intros s [H1 H2]. exact H1.
Qed.
Lemma parse_u8_low : lows parse_u8.
Proof.
  unfold parse_u8. eapply sf_bind; [apply read_exact_low; lia|].
  intros l. apply sf_ret. intros s [H1 H2]. exact H1.
Qed.
Lemma k_parse_u8 : keep parse_u8.
Proof. apply lows_keep, parse_u8_low. Qed.
Lemma k_parse_uint : forall n, keep (parse_uint n).
Proof. intros. unfold parse_uint. k. Qed.
Hint Resolve k_parse_u8 k_parse_uint : keep.

(** Skipping forward. *)
Lemma skip_safe : forall pos, (pos < pow2_64)%N ->
  safe (fun s => inv s /\ (rpos s <= pos)%N) (m_skip_to pos) (fun _ => inv) (fun _ => inv).
Proof.
  intros pos Hp s [Hs Hle]. unfold m_skip_to, rdop, bind.
  destruct (skip_to pos (p_rd s)) as [[e|] r'] eqn:E; apply skip_to_spec in E.
  - assert (rdok r').
    { destruct E as [E1 E2]. destruct (r_seekable (p_rd s)).
      - destruct e as [e|].
        + destruct E2 as (d & Hd & Hm). eapply rdok_moved; [apply (i_rd _ Hs)|exact Hm| |]; lia.
        + eapply rdok_moved; [apply (i_rd _ Hs)|exact E2| |]; lia.
      - destruct E2 as (d & Hd & Hd2 & Hm). eapply rdok_moved; [apply (i_rd _ Hs)|exact Hm| |]; [lia|].
        destruct (i_rd _ Hs). lia. }
    destruct e; cbn; apply inv_set_rd; auto.
  - unfold rpos in Hle. destruct E as [[_ E]|E]; lia.
Qed.

Lemma k_skip_unread : keep skip_unread_attributes.
Proof.
  unfold skip_unread_attributes. eapply sf_bind with (R := fun c s => inv s /\ (forall n, c = Some n -> noded n)).
  - apply sf_gets. intros s Hs. split; [exact Hs|]. intros n Hn. unfold current_node in Hn.
    pose proof (i_stack _ Hs) as F. destruct (p_stack s); [discriminate|]. injection Hn as ->. inversion F; auto.
  - intros [n|].
    + eapply sf_bind with (R := fun v s => (inv s /\ noded n) /\ v = rpos s).
      { apply sf_gets. intros s [Hs Hn]. split; [|reflexivity]. split; auto. }
      intros v. apply sf_when.
      * intros Hb. apply N.ltb_lt in Hb. apply sf_pre. intros s0 [[H1 H2] H3].
        eapply sf_conseq; [apply (skip_safe (sn_attrs_end n)); apply H2| | |]; auto.
        intros s ->. split; [exact H1 | lia].
      * intros _ s [[H1 H2] H3]. exact H1.
    + eapply sf_conseq; [apply k_ret| | |]; auto. intros s [H _]. exact H.
Qed.
Hint Resolve k_skip_unread : keep.

Definition hdr_ok (h : node_header) (ver : N) : Prop :=
  (nh_end h < pow2_64)%N /\ (nh_alen h < pow2_64)%N /\ (ver < 7500 -> nh_alen h < 2 ^ 32)%N.

Lemma read_node_header_safe : forall ver,
  safe (fun s => inv s /\ p_ver s = ver) read_node_header (fun h s => (inv s /\ low s) /\ hdr_ok h ver) (fun _ => inv).
Proof.
  intros ver. unfold read_node_header.
  eapply sf_bind with (R := fun v s => inv s /\ v = ver). { apply sf_gets. auto. }
  intros v. apply sf_pre. intros s0 [H0 Hv].
  assert (W : (1 <= hdr_width v)%nat) by (unfold hdr_width; destruct (_ <? _)%N; lia).
  assert (B : forall n, (n < 2 ^ (8 * N.of_nat (hdr_width v)))%N -> (n < pow2_64)%N /\ (ver < 7500 -> n < 2 ^ 32)%N).
  { intros n Hn. subst v. unfold hdr_width in Hn. destruct (N.ltb_spec ver 7500); unfold pow2_64; cbn in Hn |- *; split; lia. }
  eapply sf_bind with (R := fun e s => inv s /\ (e < pow2_64)%N).
  { eapply sf_conseq; [apply (parse_uint_low _ W)| | |]; auto.
    - intros s ->. exact H0.
    - intros a s [[X _] Y]. split; [exact X | apply B; exact Y]. }
  intros e. eapply sf_bind with (R := fun _ s => inv s /\ (e < pow2_64)%N).
  { apply sf_pre. intros s1 [X Y]. eapply sf_conseq; [apply (k_parse_uint (hdr_width v))| | |]; auto.
    intros s ->. exact X. }
  intros na. eapply sf_bind with (R := fun b s => inv s /\ (e < pow2_64)%N /\ (b < pow2_64)%N /\ (ver < 7500 -> b < 2 ^ 32)%N).
  { apply sf_pre. intros s1 [X Y]. eapply sf_conseq; [apply (parse_uint_low _ W)| | |]; auto.
    - intros s ->. exact X.
    - intros a s [[X1 _] Y1]. apply B in Y1. tauto. }
  intros b. eapply sf_bind with (R := fun _ s => (inv s /\ low s) /\ (e < pow2_64)%N /\ (b < pow2_64)%N /\ (ver < 7500 -> b < 2 ^ 32)%N).
  { apply sf_pre. intros s1 [X Y]. eapply sf_conseq; [apply parse_u8_low| | |]; auto.
    intros s ->. exact X. }
  intros nl. apply sf_ret. intros s [X Y]. split; [exact X|]. exact Y.
Qed.

Lemma inv_push : forall s n, inv s -> noded n -> inv (push n (count_child s)).
Proof.
  intros s n [A B C D E] Hn. unfold push, count_child. destruct (p_stack s) as [|m t] eqn:Es.
  - constructor; cbn; auto; try lia. rewrite Es. auto.
  - constructor; cbn; auto.
    + intros _. apply B. discriminate.
    + constructor; [exact Hn|]. inversion C; subst. constructor; auto.
Qed.
Lemma inv_pop : forall s, inv s -> inv (pop s).
Proof.
  intros s [A B C D E]. unfold pop. constructor; cbn; auto.
  - destruct (p_stack s); cbn; auto. intros _. apply B. discriminate.
  - destruct (p_stack s); cbn; auto. inversion C; auto.
Qed.
Lemma k_pop : keep (modify pop).
Proof. apply sf_modify. intros s. apply inv_pop. Qed.
Hint Resolve k_pop : keep.

(** The overflow of the end of the attributes is the only panic left. *)
(** Overflow checks are on and the header fields are wide enough to overflow. *)
Definition ovf (ver : N) : Prop := ovf_checks = true /\ (7500 <= ver)%N.

Lemma k_start_node : forall ver start h, hdr_ok h ver ->
  psafe (ovf ver) (fun s => inv s /\ low s) (start_node start h) (fun _ => inv) (fun _ => inv).
Proof.
  intros ver start h (E1 & E2 & E3). unfold start_node.
  eapply sf_bind with (R := fun _ s => inv s /\ low s).
  { apply sf_any. apply sf_when; [intros _|auto].
    (* warning does not move the reader *)
    intros s [Hs Hl].
    assert (K : keep (let* pos := position in
    let* bp := reader_pos in
    let* idx := gets (fun s => match p_stack s with [] => p_top s | n :: _ => sn_kids n end) in
    warn EmptyNodeName
         (mkPos bp start (node_path pos ++ [(idx, [])]) (attribute_index pos)))) by k.
    specialize (K s Hs). unfold bind, position, reader_pos, gets, warn in *.
    destruct (position_of s) as [p|]; [|exact K].
    destruct (p_handler s) as [hd|]; [destruct (hd _)|]; cbn in *; auto. }
  intros _. eapply sf_bind with (R := fun _ s => inv s /\ low s).
  { apply sf_any. destruct (N.to_nat (bN (nh_nlen h))) as [|k] eqn:En.
    - intros s [Hs Hl]. pose proof (k_read_exact O s Hs) as K.
      unfold read_exact, try_read, rdop, bind in *.
      destruct (rd_exact 0 (p_rd s)) as [[[e|got]|] r'] eqn:E; cbn in *; auto.
      split; [exact K|]. apply rd_exact_spec in E. destruct E as (_ & _ & (_ & _ & M & _) & _).
      unfold low, rpos in *. cbn. rewrite M. cbn. lia.
    - eapply sf_conseq; [apply (read_exact_low (Datatypes.S k)); lia| | |]; auto.
      + intros s X. apply X.
      + intros a s X. apply X. }
  intros name. destruct (utf8_valid name); [|apply sf_throw; intros s X; apply X].
  eapply sf_bind with (R := fun v s => (inv s /\ low s) /\ v = rpos s). { apply sf_gets. auto. }
  intros v. apply sf_pre. intros s0 [[X1 X2] X3].
  eapply sf_bind with (R := fun e s => inv s /\ (e < pow2_64)%N).
  { intros s ->. unfold add_u64. destruct (v + nh_alen h <? pow2_64)%N eqn:El.
    - apply N.ltb_lt in El. cbn -[pow2_64]. auto.
    - apply N.ltb_ge in El. destruct ovf_checks eqn:Ho.
      2:{ cbn -[pow2_64]. split; [exact X1|]. apply N.mod_lt. discriminate. }
      cbn. destruct (N.lt_ge_cases ver 7500) as [Hov|Hov].
      2:{ split; assumption. }
      + specialize (E3 Hov). unfold low in X2. subst v. unfold pow2_63, pow2_64 in *. cbn in E3. lia. }
  intros e. eapply sf_bind with (R := fun _ s => exists s0, inv s0 /\ (e < pow2_64)%N /\ s = count_child s0).
  { apply sf_modify. intros s [Y1 Y2]. eauto. }
  intros _. eapply sf_bind with (R := fun _ => inv).
  { apply sf_modify. intros s (s1 & Y1 & Y2 & ->). apply inv_push; [exact Y1|]. split; [exact E1 | exact Y2]. }
  intros _. apply sf_any, k_ret.
Qed.


Lemma first_nonzero_lt : forall l k, first_nonzero l = Some k -> (k < length l)%nat.
Proof.
  induction l as [|b t IH]; intros k H; [discriminate|]. cbn in H.
  destruct (bN b =? 0)%N.
  - destruct (first_nonzero t) as [j|]; [|discriminate]. injection H as <-. specialize (IH j eq_refl). cbn. lia.
  - injection H as <-. cbn. lia.
Qed.

Lemma pad_ok : forall k, (k < 16)%nat -> N.to_nat (N.land (N.of_nat (128 + k)) 15) = k.
Proof.
  intros k Hk. change 15%N with (N.ones 4). rewrite N.land_ones. rewrite Nat2N.inj_add.
  change (2 ^ 4)%N with 16%N. change (N.of_nat 128) with 128%N. lia.
Qed.

Lemma k_footer : keep read_footer.
Proof.
  unfold read_footer. apply k_bind; [k|]. intros start. apply k_bind; [k|]. intros u1.
  apply k_bind; [k|]. intros after1. apply k_bind; [k|]. intros []. apply k_bind; [k|]. intros buf_start.
  eapply sf_bind with (R := fun buf s => inv s /\ length buf = 144%nat).
  { eapply sf_conseq; [apply (read_exact_low 144); lia| | |]; auto. intros a s [[X _] Y]. auto. }
  intros buf. destruct (first_nonzero (skipn 128 buf)) as [kk|] eqn:Ef.
  2:{ eapply sf_conseq; [apply k_throw| | |]; auto. intros s X; apply X. }
  apply sf_pre. intros s0 [Hs0 Hl]. apply first_nonzero_lt in Ef. rewrite skipn_length, Hl in Ef.
  assert (Hpad : N.to_nat (N.land (N.of_nat (128 + kk)) 15) = kk) by (apply pad_ok; lia).
  cbv zeta. rewrite Hpad.
  eapply sf_conseq with (P' := inv) (Q' := fun _ => inv) (QE' := fun _ => inv); auto; [|intros s ->; exact Hs0].
  change (keep (assert_ (Nat.ltb kk 16) ;; assert_ (Nat.eqb (128 + kk) (kk + 128)) ;;
      let padding := slice 0 kk buf in
      let u2 := slice kk (kk + 4) buf in
      let version := le_dec (slice (kk + 4) (kk + 8) buf) in
      let zeroes := slice (kk + 8) (kk + 128) buf in
      let u3part := skipn (kk + 128) buf in
      if negb (all_zero padding) then broken
      else if negb (bytes_eqb u2 (zeros 4)) then broken
      else
        let* ver := gets p_ver in
        if negb (version =? ver)%N then broken
        else if negb (all_zero zeroes) then broken
        else
          let* rest := read_exact (16 - length u3part) in
          let u3 := u3part ++ rest in
          if negb (bytes_eqb u3 unknown3_expected) then broken
          else
            when (negb (N.of_nat kk =? pad16 buf_start)%N)
                 (warn (InvalidFooterPaddingLength (pad16 buf_start) (N.of_nat kk))
                       (mkPos buf_start start [] None)) ;;
            ret (mkFooter u1 (N.of_nat kk) u2 version u3))).
  apply k_bind. { apply sf_assert. intros s Hs. split; [apply Nat.ltb_lt; lia | exact Hs]. }
  intros _. apply k_bind. { apply sf_assert. intros s Hs. split; [apply Nat.eqb_eq; lia | exact Hs]. }
  intros _. cbv zeta. unfold broken. k.
Qed.
Hint Resolve k_footer : keep.

(** ** Attributes *)
Lemma k_run_z : forall A (p : zprog A), keep (run_z p).
Proof. intros A p. induction p as [a|n f IH|n f IH]; cbn [run_z]; k; try apply IH. apply k_rdop. apply to_end_ok. Qed.
Hint Resolve k_run_z : keep.
Lemma k_mk_decoder : forall e, keep (mk_decoder e).
Proof. intros. unfold mk_decoder. k. Qed.
Hint Resolve k_mk_decoder : keep.
Lemma k_dec_read : forall d n, keep (dec_read d n).
Proof.
  intros [|st] n; unfold dec_read; k.
Qed.
Hint Resolve k_dec_read : keep.
Lemma it_next_safe : forall A (el : elem A) it,
  safe inv (it_next el it) (fun x s => inv s /\
     match snd x with
     | None => it_rest it = 0%N
     | Some (inr _) => (it_rest it = it_rest (fst x) + 1)%N
     | Some (inl _) => True end) (fun _ => inv).
Proof.
  intros A el it. unfold it_next. destruct (it_rest it =? 0)%N eqn:E0.
  - apply N.eqb_eq in E0. apply sf_ret. intros s Hs. cbn. auto.
  - apply N.eqb_neq in E0. eapply sf_bind; [apply k_dec_read|]. intros [d r]. cbv beta iota.
    destruct r; apply sf_ret; intros s Hs; cbn; split; auto. lia.
Qed.
Lemma k_it_next : forall A (el : elem A) it, keep (it_next el it).
Proof. intros. eapply sf_conseq; [apply it_next_safe| | |]; auto. intros a s X; apply X. Qed.
Hint Resolve k_it_next : keep.

Lemma collect_loop_safe : forall A (el : elem A) n it acc, (N.to_nat (it_rest it) < n)%nat ->
  safe inv (nloop n (collect_step el) (it, acc)) (fun r s => inv s /\ exists x, r = inr x) (fun _ => inv).
Proof.
  intros A el n. induction n as [|n IH]; intros it acc Hn; [lia|]. cbn [nloop].
  eapply sf_bind with (R := fun r s => inv s /\ forall x, r = inl x -> (it_rest (fst x) + 1 = it_rest it)%N).
  { unfold collect_step. eapply sf_bind; [apply it_next_safe|]. intros [it' [[e|v]|]]; cbn [fst snd];
      apply sf_ret; intros s [Hs Hx]; split; auto; intros x [=]. subst. cbn. lia. }
  intros [x|v].
  - apply sf_pre. intros s0 [Hs0 Hx]. specialize (Hx x eq_refl). destruct x as [it' acc']. cbn [fst] in Hx.
    eapply sf_conseq; [apply (IH it' acc'); lia| | |]; auto. intros s ->. exact Hs0.
  - apply sf_ret. intros s [Hs _]. split; [exact Hs | eauto].
Qed.

Lemma k_it_collect : forall A (el : elem A) it, keep (it_collect el it).
Proof.
  intros. unfold it_collect.
  eapply sf_bind with (R := fun r s => inv s /\ exists x, r = inr x).
  - intros s Hs. rewrite mloop_nloop. apply collect_loop_safe; [|exact Hs].
    destruct (it_rest it); cbn; lia.
  - intros [x|x].
    + intros s [_ [y [=]]].
    + apply sf_ret. intros s X. apply X.
Qed.
Hint Resolve k_it_collect : keep.
Lemma k_run_seq : forall A O (el : elem A) (p : seqprog A O) it, keep (run_seq el p it).
Proof.
  intros A O el p. induction p as [r|kk IH|kk IH]; intros it; cbn [run_seq].
  - k.
  - apply k_bind; [k|]. intros [it' o]. apply IH.
  - apply k_bind; [k|]. intros [it' o]. apply IH.
Qed.
Hint Resolve k_run_seq : keep.
Lemma k_run_rd : forall O (p : rdprog O) limit, keep (run_rd p limit).
Proof.
  intros O p. induction p as [r|n kk IH|n kk IH|kk IH|amt kk IH]; intros limit; cbn [run_rd].
  - k.
  - apply k_bind; [apply k_rdop; apply once_ok | intros; apply IH].
  - destruct (N.of_nat n <=? limit)%N.
    + apply k_bind; [k|]. intros p0. apply k_bind; [apply k_try_read|]. intros r. apply k_bind; [k|]. intros; apply IH.
    + apply k_bind; [k|]. intros p0. apply k_bind; [apply k_rdop, to_end_ok|]. intros r. apply k_bind; [k|]. intros; apply IH.
  - apply k_bind; [k|]. intros p0. apply k_bind; [apply k_rdop, to_end_ok|]. intros r. apply k_bind; [k|]. intros; apply IH.
  - apply k_bind.
    + apply k_rdop. intros r Hr. destruct (rd_peek _ r) as [x r'] eqn:E. apply rd_peek_spec in E.
      destruct E as (Hm & _). eapply rdok_moved; [exact Hr | exact Hm | lia|]. destruct Hr. lia.
    + intros a. apply k_bind; [k | intros; apply IH].
Qed.
Hint Resolve k_run_rd : keep.
Lemma k_attr_position : forall a b, keep (attr_position a b).
Proof. intros. unfold attr_position. k. Qed.
Hint Resolve k_attr_position : keep.
Lemma k_warn_bool : forall a b, keep (warn_bool a b).
Proof. intros. unfold warn_bool. k. Qed.
Hint Resolve k_warn_bool : keep.
Lemma k_read_attr_type : keep read_attr_type.
Proof. unfold read_attr_type. k. Qed.
Hint Resolve k_read_attr_type : keep.

(** Loads need an attributes object; it survives every step. *)
Definition att (s : pstate) : Prop := p_attrs s <> None.
Definition lsafe {A} (P : pstate -> Prop) (m : M A) : Prop :=
  safe (fun s => inv s /\ att s /\ P s) m (fun _ s => inv s /\ att s) (fun _ => inv).

Lemma att_keep : forall A (m : M A) P, keep m -> steps quietl m -> lsafe P m.
Proof.
  intros A m P K S s (H1 & H2 & H3). specialize (K s H1). specialize (S s).
  destruct (m s) as [[a|e|] s']; cbn in *; auto. split; [exact K|].
  assert (Q : quietl s s') by (apply S; discriminate). destruct Q as [_ Q]. unfold att in *.
  destruct (p_attrs s), (p_attrs s'); congruence || tauto.
Qed.
Lemma att_lows : forall A (m : M A), lows m -> steps quietl m ->
  safe (fun s => inv s /\ att s) m (fun _ s => inv s /\ att s /\ low s) (fun _ => inv).
Proof.
  intros A m K S s (H1 & H2). specialize (K s H1). specialize (S s).
  destruct (m s) as [[a|e|] s']; cbn in *; auto. destruct K as [K1 K2]. split; [exact K1|]. split; [|exact K2].
  assert (Q : quietl s s') by (apply S; discriminate). destruct Q as [_ Q]. unfold att in *.
  destruct (p_attrs s), (p_attrs s'); congruence || tauto.
Qed.

Lemma update_safe : forall n, (n < 2 ^ 32)%N ->
  safe (fun s => inv s /\ att s /\ low s) (update_next_attr_start_offset n) (fun _ s => inv s /\ att s) (fun _ => inv).
Proof.
  intros n Hn s (H1 & H2 & H3). unfold update_next_attr_start_offset, reader_pos, get_attrs, bind, gets.
  destruct (p_attrs s) as [a|] eqn:Ea; [|unfold att in H2; congruence]. cbn -[pow2_64].
  assert (X : (r_pos (p_rd s) + n < pow2_64)%N).
  { unfold low, rpos in H3. unfold pow2_63, pow2_64 in *. cbn in Hn. lia. }
  apply N.ltb_lt in X. rewrite X. cbn -[pow2_64]. apply N.ltb_lt in X. split.
  - apply inv_set_attrs; [exact H1|]. intros x [= <-]. cbn -[pow2_64]. exact X.
  - unfold att. cbn. discriminate.
Qed.

Lemma read_next_attr_type_safe :
  safe (fun s => inv s /\ att s) read_next_attr_type (fun _ s => inv s /\ att s) (fun _ => inv).
Proof.
  unfold read_next_attr_type, get_attrs.
  eapply sf_bind with (R := fun a s => inv s /\ att s /\ (a_next a < pow2_64)%N).
  { intros s [H1 H2]. unfold bind, gets. destruct (p_attrs s) as [a|] eqn:Ea; [|unfold att in H2; congruence].
    cbn -[pow2_64]. split; [exact H1|]. split; [exact H2|]. apply (i_attrs _ H1). exact Ea. }
  intros a. destruct (a_rest a =? 0)%N.
  { apply sf_ret. intros s X. split; apply X. }
  eapply sf_bind with (R := fun v s => (inv s /\ att s /\ (a_next a < pow2_64)%N) /\ v = rpos s).
  { apply sf_gets. auto. }
  intros v. eapply sf_bind with (R := fun _ s => inv s /\ att s /\ (a_next a < pow2_64)%N).
  { apply sf_when; [intros Hb|intros _ s X; apply X]. apply N.ltb_lt in Hb.
    intros s ((H1 & H2 & H3) & H4). subst v.
    assert (X := skip_safe (a_next a) H3 s (conj H1 (N.lt_le_incl _ _ Hb))).
    assert (Y := m_skip_to_quiet (a_next a) s).
    destruct (m_skip_to (a_next a) s) as [[u|e|] s']; cbn in *; auto.
    split; [exact X|]. split; [|exact H3]. destruct (Y ltac:(discriminate)) as [_ E]. unfold att. rewrite E. exact H2. }
  intros _. eapply sf_bind with (R := fun _ s => inv s /\ (a_next a < pow2_64)%N).
  { apply sf_pre. intros s0 (H1 & H2 & H3). eapply sf_conseq; [apply k_read_attr_type| | |]; auto.
    intros s ->. exact H1. }
  intros t. eapply sf_bind with (R := fun _ s => inv s /\ att s).
  { apply sf_modify. intros s (H1 & H3). split; [|unfold att; cbn; discriminate].
    apply inv_set_attrs; [exact H1|]. intros x [= <-]. exact H3. }
  intros _. apply sf_ret. auto.
Qed.

Lemma lsafe_done : forall A (m : M A), keep m -> steps quietl m ->
  safe (fun s => inv s /\ att s) m (fun _ => inv) (fun _ => inv).
Proof.
  intros A m K _. eapply sf_conseq; [exact K| | |]; auto. intros s X; apply X.
Qed.

Lemma k_after : forall A (m : M A), keep m -> safe (fun s => inv s /\ att s) m (fun _ => inv) (fun _ => inv).
Proof. intros A m K. eapply sf_conseq; [exact K| | |]; auto. intros s X; apply X. Qed.

Lemma k_array_header :
  safe (fun s => inv s /\ att s) read_array_header
    (fun h s => (inv s /\ att s /\ low s) /\ (snd h < 2 ^ 32)%N) (fun _ => inv).
Proof.
  assert (S := read_array_header_quiet).
  intros s [H1 H2]. 
  assert (K : safe inv read_array_header (fun h s => (inv s /\ low s) /\ (snd h < 2 ^ 32)%N) (fun _ => inv)).
  { unfold read_array_header. eapply sf_bind; [apply k_parse_uint|]. intros c.
    eapply sf_bind; [apply k_parse_uint|]. intros e. destruct (enc_of_u32 e); [|apply sf_throw; auto].
    eapply sf_bind; [apply (parse_uint_low 4); lia|]. intros l. apply sf_ret. intros s1 [X Y]. split; [exact X|]. exact Y. }
  specialize (K s H1). specialize (S s). destruct (read_array_header s) as [[h|e|] s']; cbn in *; auto.
  destruct K as [[K1 K2] K3]. destruct (S ltac:(discriminate)) as [_ E].
  split; [|exact K3]. split; [exact K1|]. split; [|exact K2]. unfold att in *. rewrite E. exact H2.
Qed.

Lemma k_load_array : forall A O (el : elem A) (ld : N -> seqprog A O) a b,
  safe (fun s => inv s /\ att s) (load_array el ld a b) (fun _ => inv) (fun _ => inv).
Proof.
  intros. unfold load_array. eapply sf_bind; [apply k_array_header|]. intros [[count enc] len].
  cbn [snd]. apply sf_pre. intros s0 [H0 Hlen]. cbv beta iota.
  eapply sf_bind with (R := fun _ s => inv s /\ att s).
  { eapply sf_conseq; [apply (update_safe len Hlen)| | |]; auto. intros s ->. exact H0. }
  intros _. apply k_after. k.
Qed.
Lemma k_load_special : forall O (ld : N -> rdprog O),
  safe (fun s => inv s /\ att s) (load_special ld) (fun _ => inv) (fun _ => inv).
Proof.
  intros. unfold load_special.
  eapply sf_bind with (R := fun len s => (inv s /\ att s /\ low s) /\ (len < 2 ^ 32)%N).
  { intros s [H1 H2]. pose proof (parse_uint_low 4 ltac:(lia) s H1) as K. pose proof (parse_uint_quiet 4 s) as S.
    destruct (parse_uint 4 s) as [[h|e|] s']; cbn in *; auto.
    destruct K as [[K1 K2] K3]. destruct (S ltac:(discriminate)) as [_ E].
    split; [|exact K3]. split; [exact K1|]. split; [|exact K2]. unfold att in *. rewrite E. exact H2. }
  intros len. apply sf_pre. intros s0 [H0 Hlen].
  eapply sf_bind with (R := fun _ s => inv s /\ att s).
  { eapply sf_conseq; [apply (update_safe len Hlen)| | |]; auto. intros s ->. exact H0. }
  intros _. apply k_after. k.
Qed.

Lemma al : forall A (m : M A), steps quieta m -> steps quietl m.
Proof. intros. apply steps_al. assumption. Qed.

Lemma prim_safe : forall A B (m : M A) (f : A -> M B), lows m -> steps quieta m -> (forall v, keep (f v)) ->
  safe (fun s => inv s /\ att s) (let* v := m in update_next_attr_start_offset 0 ;; f v) (fun _ => inv) (fun _ => inv).
Proof.
  intros A B m f L Q K. eapply sf_bind; [apply (att_lows _ _ L); apply al; exact Q|]. intros v.
  eapply sf_bind; [apply update_safe; reflexivity|]. intros u. apply k_after. apply K.
Qed.

Lemma load_next_impl_safe : forall O b t (ld : loader O) x y,
  safe (fun s => inv s /\ att s) (load_next_impl b t ld x y) (fun _ => inv) (fun _ => inv).
Proof.
  intros O b t ld x y. assert (U : forall n, (1 <= n)%nat -> lows (parse_uint n)).
  { intros n Hn. eapply sf_conseq; [apply (parse_uint_low n Hn)| | |]; auto. intros a s X; apply X. }
  destruct t; cbn [load_next_impl];
    try apply k_load_array; try apply k_load_special.
  - apply (prim_safe _ _ parse_u8 (fun raw => when (bool_raw_bad raw) (warn_bool x y) ;; lift (ld_bool ld (bool_of_raw raw)))).
    + apply parse_u8_low.
    + apply parse_u8_quiet.
    + intros v. k.
  - apply prim_safe; [apply parse_sint_low; lia | apply parse_sint_quiet | intros; apply k_lift].
  - apply prim_safe; [apply parse_sint_low; lia | apply parse_sint_quiet | intros; apply k_lift].
  - apply prim_safe; [apply parse_sint_low; lia | apply parse_sint_quiet | intros; apply k_lift].
  - apply prim_safe; [apply U; lia | apply parse_uint_quiet | intros; apply k_lift].
  - apply prim_safe; [apply U; lia | apply parse_uint_quiet | intros; apply k_lift].
Qed.

Lemma load_body_safe : forall O b (ld : loader O) x y,
  safe (fun s => inv s /\ att s) (load_body b ld x y) (fun _ => inv) (fun _ => inv).
Proof.
  intros. unfold load_body. eapply sf_bind; [apply read_next_attr_type_safe|]. intros [t|].
  - eapply sf_bind; [apply load_next_impl_safe|]. intros v. apply k_ret.
  - apply sf_ret. intros s X; apply X.
Qed.

Lemma load_next_safe : forall O b (ld : loader O),
  safe (fun s => inv s /\ att s) (load_next_gen b ld) (fun _ => inv) (fun _ => inv).
Proof.
  intros O b ld. unfold load_next_gen, do_with_health_check.
  eapply sf_bind with (R := fun _ s => inv s /\ att s).
  { intros s H. unfold ensure_continuable. destruct (p_health s); cbn; auto; apply H. }
  intros _. eapply sf_bind with (R := fun _ s => inv s /\ att s).
  { intros s [H1 H2]. unfold get_attrs, bind, gets. destruct (p_attrs s) eqn:E; [|unfold att in H2; congruence].
    cbn. split; [exact H1 | exact H2]. }
  intros a. cbv zeta. eapply sf_bind with (R := fun _ => inv).
  { apply sf_try. apply (load_body_safe O b ld). }
  intros [e|v]; [|apply k_ret]. apply k_bind; [k|]. intros p.
  eapply sf_bind with (R := fun _ => inv); [|intros; apply k_throw].
  apply sf_modify. intros s [A B C D E]. constructor; auto. cbn. discriminate.
Qed.

(** ** Events *)
Lemma next_event_impl_safe : forall ver,
  psafe (ovf ver) (fun s => inv s /\ p_ver s = ver /\ p_health s = Running) next_event_impl (fun _ => inv) (fun _ => inv).
Proof.
  intros ver. unfold next_event_impl.
  eapply sf_bind with (R := fun v s => inv s /\ p_ver s = ver /\ p_health s = Running /\ v = Running).
  { apply sf_gets. intros s (H1 & H2 & H3). auto. }
  intros hl. eapply sf_bind with (R := fun _ s => inv s /\ p_ver s = ver /\ p_health s = Running).
  { apply sf_assert. intros s (H1 & H2 & H3 & ->). auto. }
  intros _. eapply sf_bind with (R := fun v s => inv s /\ p_ver s = ver /\ v <> Some KEndFbx).
  { apply sf_gets. intros s (H1 & H2 & H3). split; [exact H1|]. split; [exact H2|]. apply (i_last _ H1 H3). }
  intros l. eapply sf_bind with (R := fun _ s => inv s /\ p_ver s = ver).
  { apply sf_assert. intros s (H1 & H2 & H3). split; auto. destruct l as [[| |]|]; congruence. }
  intros _. eapply sf_bind with (R := fun _ s => inv s /\ p_ver s = ver).
  { apply sf_any. intros s [H1 H2]. pose proof (k_skip_unread s H1) as K. pose proof (skip_unread_quiet s) as S.
    destruct (skip_unread_attributes s) as [[u|e|] s']; cbn in *; auto. split; [exact K|].
    destruct (S ltac:(discriminate)) as [(E & _) _]. congruence. }
  intros _. eapply sf_bind with (R := fun _ s => inv s /\ p_ver s = ver). { apply sf_gets. auto. }
  intros start. eapply sf_bind with (R := fun _ s => inv s /\ p_ver s = ver). { apply sf_gets. auto. }
  intros cur.
  set (after := bind read_node_header _).
  assert (Hafter : psafe (ovf ver) (fun s => inv s /\ p_ver s = ver) after (fun _ => inv) (fun _ => inv)).
  { unfold after. eapply sf_bind; [apply sf_any, read_node_header_safe|]. intros h.
    eapply sf_bind with (R := fun _ s => (inv s /\ low s) /\ hdr_ok h ver). { apply sf_gets. auto. }
    intros hend. apply sf_pre. intros s0 [H0 Hh].
    eapply sf_conseq with (P' := fun s => inv s /\ low s) (Q' := fun _ => inv) (QE' := fun _ => inv); auto.
    2:{ intros s ->. exact H0. }
    destruct (is_node_end h).
    - apply sf_any. eapply sf_conseq with (P' := inv) (Q' := fun _ => inv) (QE' := fun _ => inv); auto; [|intros s X; apply X].
      apply k_bind; [apply k_gets|]. intros top. apply k_bind; [apply k_pop|]. intros _.
      destruct top as [c|]; [|k]. destruct (negb (sn_end c =? hend)%N); k.
    - eapply k_start_node; eauto. }
  destruct cur as [n|]; [|exact Hafter].
  destruct (sn_end n <? start)%N; [apply sf_throw; intros s X; apply X|].
  destruct (sn_end n =? start)%N; [|exact Hafter].
  apply sf_any. eapply sf_conseq with (P' := inv) (Q' := fun _ => inv) (QE' := fun _ => inv); auto; [|intros s X; apply X].
  k.
Qed.

Lemma wsub_1 : forall n, wrapping_sub (n + 1) n = 1%N.
Proof. intros n. unfold wrapping_sub, pow2_64. lia. Qed.

Lemma bind_eq : forall A B (m : M A) (f : A -> M B) s r s1, m s = (r, s1) ->
  bind m f s = match r with Ok a => f a s1 | Err e => (Err e, s1) | Panic => (Panic, s1) end.
Proof. intros A B m f s r s1 H. unfold bind. rewrite H. destruct r; reflexivity. Qed.

Lemma next_event_safe : forall ver,
  psafe (ovf ver) (fun s => inv s /\ p_ver s = ver) next_event
    (fun ev s => inv s /\ match ev with EvStart _ => p_stack s <> [] | _ => True end) (fun _ => inv).
Proof.
  intros ver s [Hs Hv]. unfold next_event. rewrite bind_gets.
  destruct (p_health s) eqn:Eh.
  2:{ erewrite bind_eq; [|unfold ensure_continuable; rewrite Eh; reflexivity]. exact Hs. }
  2:{ erewrite bind_eq; [|unfold ensure_continuable; rewrite Eh; reflexivity]. exact Hs. }
  erewrite bind_eq; [|unfold ensure_continuable; rewrite Eh; reflexivity].
  pose proof (next_event_impl_safe ver s (conj Hs (conj Hv Eh))) as K.
  destruct (next_event_impl s) as [r0 s1] eqn:Ei. cbn in K.
  destruct r0 as [kk|e0|];
    (erewrite bind_eq; [|unfold try_; rewrite Ei; reflexivity]); [| |exact K].
  - assert (Hp : impl_path s (Ok kk) s1) by (apply next_event_impl_path in Ei; [tauto|discriminate]).
    assert (Hh1 : p_health s1 = Running).
    { apply impl_path_shape in Hp. destruct kk.
      - destruct Hp as (n & s4 & [(_ & A & _) _] & -> & _). unfold push, count_child.
        destruct (p_stack s4); cbn in *; congruence.
      - destruct Hp as (n & rest & s4 & _ & [(_ & A & _) _] & [(_ & B & _) _]). cbn in *. congruence.
      - destruct Hp as (_ & [(_ & A & _) _]). cbn in A. congruence. }
    destruct kk; cbn [ekind_eqb when].
    + rewrite bind_ret, bind_modify, bind_gets.
      apply impl_path_shape in Hp. destruct Hp as (n & s4 & [(_ & _ & A & _) _] & -> & _).
      assert (D : depth (set_last (Some KStart) (push n (count_child s4))) = (depth s + 1)%N).
      { unfold depth, push, count_child. rewrite <- A. destruct (p_stack s4) eqn:E4; cbn [p_stack set_stack set_last set_top]; rewrite ?E4; unfold lenN; cbn [length]; lia. }
      rewrite D, wsub_1. cbn [N.eqb Pos.eqb assert_]. rewrite bind_ret, bind_gets.
      cbn [p_last set_last ekind_eqb assert_]. rewrite bind_ret, bind_gets. cbn.
      split; [|discriminate]. destruct K as [B C E F G]. constructor; auto. cbn. discriminate.
    + rewrite bind_ret, bind_modify, bind_gets.
      apply impl_path_shape in Hp. destruct Hp as (n & rest & s4 & Es & [(_ & _ & A & _) _] & [(_ & _ & B & _) _]).
      assert (D : (depth (set_last (Some KEnd) s1) + 1 = depth s)%N).
      { unfold depth. cbn [p_stack set_last]. rewrite B. unfold pop. cbn [p_stack set_stack]. rewrite A, Es. cbn. unfold lenN; cbn [length]; lia. }
      rewrite <- D, wsub_1. cbn [N.eqb Pos.eqb assert_]. rewrite bind_ret, bind_gets.
      cbn [p_last set_last ekind_eqb assert_]. rewrite bind_ret. cbn.
      split; [|exact I]. destruct K as [B' C E F G]. constructor; auto. cbn. discriminate.
    + rewrite bind_modify, bind_modify, bind_gets.
      apply impl_path_shape in Hp. destruct Hp as (Es & [(_ & _ & A & _) _]).
      assert (D1 : depth s = 0%N) by (unfold depth; rewrite Es; reflexivity).
      assert (D2 : depth (set_last (Some KEndFbx) (set_health Finished s1)) = 0%N) by (unfold depth; cbn; rewrite A, Es; reflexivity).
      rewrite D1, D2. cbn [N.eqb andb assert_]. rewrite bind_ret, bind_gets. cbn [p_last set_last ekind_eqb assert_]. rewrite bind_ret.
      assert (K2 : inv (set_last (Some KEndFbx) (set_health Finished s1))).
      { destruct K as [B' C E F G]. constructor; auto. cbn. discriminate. }
      pose proof (k_footer _ K2) as KF. unfold bind, try_.
      destruct (read_footer _) as [[f|e|] s2]; cbn in *; tauto.
  - pose proof (k_position _ K) as P. destruct (position s1) as [[p|e|] s2] eqn:Ep;
    (erewrite bind_eq; [|exact Ep]); cbn in P |- *; [|exact P|contradiction].
    destruct P as [B' C E F G]. constructor; auto. cbn. discriminate.
Qed.

Lemma run_op_safe : forall O (o : op O) ver, is_skip o = false ->
  psafe (is_next o = true /\ ovf ver) (fun s => inv s /\ p_ver s = ver) (run_op o) (fun _ => inv) (fun _ => inv).
Proof.
  intros O o ver Hs. destruct o as [|l|l|]; try discriminate; cbn [run_op].
  - eapply sf_bind with (R := fun _ s => inv s /\ p_ver s = ver).
    { apply sf_modify. intros s [H1 H2]. split; [|exact H2]. apply inv_set_attrs; [exact H1 | discriminate]. }
    intros _. eapply sf_bind with (R := fun ev s => inv s /\ match ev with EvStart _ => p_stack s <> [] | _ => True end).
    { intros s H. pose proof (next_event_safe ver s H) as K. destruct (next_event s) as [[a|e|] s']; cbn in *; tauto. }
    intros ev. apply sf_any. destruct ev as [nm| |f].
    + eapply sf_bind with (R := fun _ => inv); [|intros; apply k_ret].
      intros s [H1 H2]. unfold from_parser, bind, gets, reader_pos, current_node.
      destruct (p_stack s) as [|n st] eqn:Es; [congruence|]. cbn.
      apply inv_set_attrs; [exact H1|]. intros x [= <-]. cbn -[pow2_64]. apply (i_rd _ H1).
    + apply sf_ret. intros s X; apply X.
    + apply sf_ret. intros s X; apply X.
  - apply sf_any. intros s [H1 H2]. rewrite bind_gets. destruct (p_attrs s) as [a|] eqn:Ea; [|exact H1].
    apply (sf_bind False _ _ (load_next l) (fun v => ret (BAttr v)) (fun s => inv s /\ att s) (fun _ => inv) (fun _ => inv) (fun _ => inv)).
    + apply load_next_safe.
    + intros; apply k_ret.
    + split; [exact H1|]. unfold att. congruence.
  - apply sf_any. intros s [H1 H2]. rewrite bind_gets. destruct (p_attrs s) as [a|] eqn:Ea; [|exact H1].
    apply (sf_bind False _ _ (load_next_buffered l) (fun v => ret (BAttr v)) (fun s => inv s /\ att s) (fun _ => inv) (fun _ => inv) (fun _ => inv)).
    + apply load_next_safe.
    + intros; apply k_ret.
    + split; [exact H1|]. unfold att. congruence.
Qed.

(** Skipping a node: panics exactly when no node is open or its end lies behind. *)
Lemma skip_safe_iff : forall s, inv s ->
  match p_stack s with
  | [] => fst (skip_current_node s) = Panic
  | n :: _ => (fst (skip_current_node s) = Panic <-> (sn_end n < rpos s)%N)
  end.
Proof.
  intros s Hs. unfold skip_current_node. rewrite bind_gets. unfold current_node.
  destruct (p_stack s) as [|n st] eqn:Es; [reflexivity|]. cbn [hd_error]. rewrite bind_modify, bind_modify.
  assert (Hn : noded n) by (pose proof (i_stack _ Hs) as F; rewrite Es in F; inversion F; auto).
  set (s1 := set_last (Some KEnd) (pop s)).
  assert (Hr : rpos s1 = rpos s) by reflexivity.
  destruct (N.lt_ge_cases (sn_end n) (rpos s)) as [Hlt|Hge].
  - split; [auto|]. intros _. unfold m_skip_to, rdop, bind, skip_to.
    change (r_pos (p_rd s1)) with (rpos s). apply N.ltb_lt in Hlt. rewrite Hlt. reflexivity.
  - split; [|lia]. intros Hp. exfalso.
    assert (Hi : inv s1).
    { unfold s1. pose proof (inv_pop _ Hs) as [A B C D E]. constructor; auto. cbn. discriminate. }
    pose proof (skip_safe (sn_end n) (proj1 Hn) s1 (conj Hi Hge)) as K. rewrite Hp in K. exact K.
Qed.

Lemma skip_inv : forall s, inv s -> fst (skip_current_node s) <> Panic -> inv (snd (skip_current_node s)).
Proof.
  intros s Hs Hp. pose proof (skip_safe_iff s Hs) as Hi. unfold skip_current_node in *. rewrite bind_gets in *. unfold current_node in *.
  destruct (p_stack s) as [|n st] eqn:Es; [contradiction|]. cbn [hd_error] in *. rewrite bind_modify, bind_modify in *.
  assert (Hn : noded n) by (pose proof (i_stack _ Hs) as F; rewrite Es in F; inversion F; auto).
  set (s1 := set_last (Some KEnd) (pop s)) in *.
  assert (Hi1 : inv s1).
  { unfold s1. pose proof (inv_pop _ Hs) as [A B C D E]. constructor; auto. cbn. discriminate. }
  destruct (N.lt_ge_cases (sn_end n) (rpos s)) as [Hlt|Hge]; [tauto|].
  pose proof (skip_safe (sn_end n) (proj1 Hn) s1 (conj Hi1 Hge)) as K.
  destruct (m_skip_to (sn_end n) s1) as [[a|e|] s2]; cbn in *; tauto.
Qed.

Lemma run_op_inv : forall O (o : op O) s, inv s -> fst (run_op o s) <> Panic -> inv (snd (run_op o s)).
Proof.
  intros O o s Hs Hp. destruct (is_skip o) eqn:Eo.
  - destruct o; try discriminate. cbn [run_op] in *. rewrite bind_modify in *.
    assert (Hs' : inv (set_attrs None s)) by (apply inv_set_attrs; [exact Hs|discriminate]).
    pose proof (skip_inv _ Hs') as K. unfold bind in *.
    destruct (skip_current_node (set_attrs None s)) as [[a|e|] s2]; cbn in *; try congruence; apply K; discriminate.
  - pose proof (run_op_safe O o (p_ver s) Eo s (conj Hs eq_refl)) as K.
    destruct (run_op o s) as [[a|e|] s2]; cbn in *; auto. congruence.
Qed.

Lemma run_ops_inv : forall O (l : list (op O)) s rs s', inv s -> run_ops l s = (rs, s') -> no_panic rs -> inv s'.
Proof.
  intros O l. induction l as [|o l IH]; intros s rs s' Hs H Hn.
  - injection H as <- <-. exact Hs.
  - apply run_ops_cons_inv in H; [|exact Hn]. destruct H as (r & s1 & rs' & E1 & Hr & E2 & -> & Hn').
    apply (IH s1 rs' s'); auto. pose proof (run_op_inv O o s Hs) as K. rewrite E1 in K. cbn in K. auto.
Qed.

Lemma opened_inv : forall data sched seeks seekable h p,
  opened data sched seeks seekable h p -> (lenN data <= pow2_63)%N -> inv p.
Proof.
  intros data sched seeks seekable h p H Hl. apply opened_init in H.
  destruct H as (H1 & H2 & H3 & H4 & H5 & H6 & H7 & H8 & H9 & H10 & H11 & H12 & H13).
  constructor.
  - split; [rewrite H8; reflexivity|]. right. rewrite H8, H11. rewrite lenN_dropN. lia.
  - rewrite H2. congruence.
  - rewrite H2. constructor.
  - rewrite H7. discriminate.
  - rewrite H3. discriminate.
Qed.

End WithEnv.
