(** What loading one attribute with the direct loader establishes about the bytes of the file. *)
Require Import Coq.Lists.List Coq.NArith.NArith Coq.ZArith.ZArith Coq.Bool.Bool Coq.micromega.Lia.
Require Import Coq.Init.Byte.
Require Import ZifyBool ZifyNat ZifyN.
Require Import Verif.Base Verif.BaseFacts Verif.Utf8 Verif.Types Verif.Io Verif.IoFacts Verif.Parser Verif.MonadFacts Verif.ParserSteps
  Verif.ParserShape Verif.SpecHist Verif.ParserHist Verif.ParserPos Verif.ReadFacts Verif.Loaders Verif.AttrLoad
  Verif.Spec Verif.LayoutIn Verif.SpecErr Verif.ErrFacts Verif.SpecTruth Verif.Truth Verif.SpecStored.
Require Verif.WarnPos.
Import ListNotations.
Ltac Zify.zify_post_hook ::= Z.div_mod_to_equations.

Lemma z2n_n2z : forall k n, (0 < k)%nat -> u_ok k n -> z2n k (n2z k n) = n.
Proof.
  intros k n Hk H. unfold u_ok in H. unfold z2n, n2z.
  assert (E : Z.of_N (2 ^ (8 * N.of_nat k)) = (2 ^ (8 * Z.of_nat k))%Z) by (rewrite N2Z.inj_pow, N2Z.inj_mul, nat_N_Z; reflexivity).
  destruct (_ <? _)%Z.
  - rewrite Z.mod_small by lia. apply N2Z.id.
  - rewrite <- (Z_mod_plus_full _ 1). replace (_ + 1 * _)%Z with (Z.of_N n) by lia. rewrite Z.mod_small by lia. apply N2Z.id.
Qed.
Lemma i_enc_dec : forall k l, (0 < k)%nat -> length l = k -> i_enc k (i_dec k l) = l /\ i_ok k (i_dec k l).
Proof.
  intros k l Hk L. assert (U : u_ok k (le_dec l)) by (pose proof (le_dec_bound l) as B; unfold u_ok; unfold lenN in B; rewrite L in B; exact B).
  unfold i_enc, i_dec. split; [rewrite z2n_n2z by assumption; rewrite <- L; apply le_enc_dec|apply n2z_ok; assumption].
Qed.
Lemma code_none : forall b, type_of_code b = None -> forall t, spec_code t <> b.
Proof. intros b H t <-. rewrite type_code_spec in H. discriminate. Qed.
Lemma code_some : forall b t, type_of_code b = Some t -> spec_code t = b.
Proof. intros b t. destruct b; cbv; intros H; try discriminate H; injection H as <-; reflexivity. Qed.

Section WithEnv.
Context {env : Env}.
Context (data : list byte) (off : N).

(** The bytes [bs] at [off] have been read. *)
Definition got (bs : list byte) (s : pstate) : Prop := dropN off data = bs ++ rem s /\ rpos s = (off + lenN bs)%N.

Lemma got_at : forall bs s, got bs s -> bs <> [] -> at_offset data off bs.
Proof. intros bs s [A _] H. eapply at_offset_drop; eassumption. Qed.
Lemma got_short : forall bs s k, got bs s -> (lenN (rem s) < k)%N -> (lenN data < off + lenN bs + k)%N.
Proof. intros bs s k [A _] H. apply (f_equal lenN) in A. rewrite lenN_dropN, lenN_app in A. lia. Qed.
Lemma got_same : forall bs s s', got bs s -> p_rd s' = p_rd s -> got bs s'.
Proof. intros bs s s' [A B] E. unfold got, rem, rpos in *. rewrite E. auto. Qed.

Definition io_short (k : N) (s : pstate) (e : perr) : Prop :=
  exists x, e_error e = EIo x /\ (x = IoEof /\ (lenN (rem s) < k)%N \/ exists c, x = IoOther c).

Lemma got_exact : forall bs s n l s', got bs s -> read_exact n s = (Ok l, s') -> got (bs ++ l) s' /\ length l = n /\ s' = set_rd (p_rd s') s.
Proof.
  intros bs s n l s' [A B] H. apply read_exact_bytes in H. destruct H as (H1 & H2 & H3 & H4). split; [|auto].
  split; [rewrite A; unfold rem; rewrite H1, app_assoc; reflexivity|]. unfold rpos in *. rewrite H3, B, lenN_app. unfold lenN. lia.
Qed.
Lemma got_uint : forall bs s k v s', got bs s -> parse_uint k s = (Ok v, s') -> got (bs ++ le_enc k v) s' /\ u_ok k v /\ s' = set_rd (p_rd s') s.
Proof.
  intros bs s k v s' G H. pose proof (parse_uint_fits _ _ _ _ H) as U. unfold parse_uint in H. mstep H as l s1 E1; try discriminate. injection H as <- <-.
  destruct (got_exact _ _ _ _ _ G E1) as (G1 & L & F). rewrite <- L at 1. rewrite le_enc_dec. auto.
Qed.
Lemma got_sint : forall bs s k v s', (0 < k)%nat -> got bs s -> parse_sint k s = (Ok v, s') -> got (bs ++ i_enc k v) s' /\ i_ok k v /\ s' = set_rd (p_rd s') s.
Proof.
  intros bs s k v s' Hk G H. unfold parse_sint in H. mstep H as l s1 E1; try discriminate. injection H as <- <-.
  destruct (got_exact _ _ _ _ _ G E1) as (G1 & L & F). destruct (i_enc_dec k l Hk L) as [-> I]. auto.
Qed.
Lemma got_u8 : forall bs s b s', got bs s -> parse_u8 s = (Ok b, s') -> got (bs ++ [b]) s' /\ s' = set_rd (p_rd s') s.
Proof.
  intros bs s b s' G H. unfold parse_u8 in H. mstep H as l s1 E1; try discriminate. injection H as <- <-.
  destruct (got_exact _ _ _ _ _ G E1) as (G1 & L & F). destruct l as [|x [|y l]]; try discriminate. auto.
Qed.
Lemma sint_err : forall n s e s', parse_sint n s = (Err e, s') -> io_short (N.of_nat n) s e.
Proof. intros n s e s' H. unfold parse_sint in H. mstep H as l s1 E1; try discriminate. injection H as ->. eapply read_exact_err. exact E1. Qed.
Lemma u8_err : forall s e s', parse_u8 s = (Err e, s') -> io_short 1 s e.
Proof. intros s e s' H. unfold parse_u8 in H. mstep H as l s1 E1; try discriminate. injection H as ->. apply read_exact_err in E1. exact E1. Qed.

Lemma update_ok : forall n s r s', update_next_attr_start_offset n s = (r, s') -> r <> Panic ->
  r = Ok tt /\ p_rd s' = p_rd s /\ exists a, p_attrs s' = Some a /\ a_next a = (rpos s + n)%N /\
    exists a0, p_attrs s = Some a0 /\ a_rest a = a_rest a0 /\ a_total a = a_total a0.
Proof.
  intros n s r s' H P. unfold update_next_attr_start_offset, reader_pos, get_attrs in H. rewrite bind_gets, bind_assoc, bind_gets in H.
  destruct (p_attrs s) as [a|]; [|injection H as <- <-; contradiction]. rewrite bind_ret in H. destruct (_ <? _)%N; injection H as <- <-; [|contradiction].
  split; [reflexivity|]. split; [reflexivity|]. eexists. split; [reflexivity|]. split; [reflexivity|]. exists a. auto.
Qed.
Lemma warn_bool_ok : forall a b x s s', when b (warn_bool a x) s = (Ok tt, s') -> p_rd s' = p_rd s /\ p_attrs s' = p_attrs s.
Proof.
  intros a b x s s' H. destruct b; cbn [when] in H; [|injection H as <-; auto]. unfold warn_bool, attr_position in H. rewrite bind_assoc in H.
  mstep H as p s1 E1; try discriminate. apply position_ok in E1; [|discriminate]. destruct E1 as (-> & _). rewrite bind_ret in H. unfold warn in H.
  destruct (p_handler s) as [h|]; [destruct (h _)|]; try discriminate; injection H as <-; auto.
Qed.
Lemma warn_bool_err : forall a b x s e s', when b (warn_bool a x) s = (Err e, s') -> refused e s'.
Proof.
  intros a b x s e s' H. destruct b; cbn [when] in H; [|discriminate]. unfold warn_bool, attr_position in H. rewrite bind_assoc in H.
  mstep H as p s1 E1; try discriminate; [rewrite bind_ret in H; eapply warn_refused; exact H|].
  apply position_ok in E1; [|discriminate]. destruct E1 as (_ & q & [=] & _).
Qed.

(** ** Array elements *)
Lemma next_item : forall A (el : elem A) it s r s', it_dec it = DDirect -> it_next el it s = (r, s') -> r <> Panic ->
  exists it' o, r = Ok (it', o) /\ it_dec it' = DDirect /\ p_attrs s' = p_attrs s /\
  match o with
  | None => it_rest it = 0%N /\ s' = s /\ it' = it
  | Some (inr v) => (0 < it_rest it)%N /\ it_rest it' = (it_rest it - 1)%N /\ it_err it' = it_err it /\
      exists l, length l = el_size el /\ v = el_dec el l /\ rem s = l ++ rem s' /\ forall bs, got bs s -> got (bs ++ l) s'
  | Some (inl e) => (0 < it_rest it)%N /\ io_short (N.of_nat (el_size el)) s e
  end.
Proof.
  intros A el it s r s' D H P. unfold it_next in H. destruct (N.eqb_spec (it_rest it) 0) as [Z|Z].
  { injection H as <- <-. exists it, None. auto 8. }
  unfold dec_read in H. rewrite D in H. rewrite bind_assoc in H. unfold try_read, rdop in H. unfold bind at 1 in H.
  destruct (rd_exact (el_size el) (p_rd s)) as [[[e|l]|] r'] eqn:E; cbn in H; injection H as <- <-; [| |contradiction].
  - eexists _, _. split; [reflexivity|]. split; [reflexivity|]. split; [reflexivity|]. split; [lia|].
    exists e. split; [reflexivity|]. pose proof (rd_exact_codes _ _ _ _ E) as (cs & _ & K). apply rd_exact_spec in E. destruct E as (d & _ & _ & _ & E).
    destruct e; try contradiction; [left; split; [reflexivity|apply E; reflexivity]|eauto].
  - eexists _, _. split; [reflexivity|]. split; [reflexivity|]. split; [reflexivity|]. cbn [it_rest it_err]. split; [lia|]. split; [reflexivity|]. split; [reflexivity|].
    exists l. apply rd_exact_spec in E. destruct E as (E1 & E2 & (_ & _ & E3 & _) & _). split; [exact E2|]. split; [reflexivity|]. split; [exact E1|].
    intros bs [G1 G2]. unfold got, rem, rpos in *. cbn [p_rd set_rd]. rewrite G1, E1, E3, G2, app_assoc, lenN_app. split; [reflexivity|]. unfold lenN. lia.
Qed.

Lemma collect_items : forall A (el : elem A) n it acc s r s', it_dec it = DDirect -> nloop n (collect_step el) (it, acc) s = (r, s') -> r <> Panic ->
  exists y, r = Ok y /\ p_attrs s' = p_attrs s /\
  match y with
  | inl _ => True
  | inr (it', inr l) => exists raw, lenN raw = it_rest it /\ Forall (fun x => length x = el_size el) raw /\ l = rev acc ++ map (el_dec el) raw /\
      it_err it' = it_err it /\ forall bs, got bs s -> got (bs ++ concat raw) s'
  | inr (_, inl e) => io_short (it_rest it * N.of_nat (el_size el)) s e
  end.
Proof.
  intros A el. induction n as [|n IH]; intros it acc s r s' D H P; cbn [nloop] in H.
  { injection H as <- <-. eexists. auto. }
  unfold collect_step at 1 in H. rewrite bind_assoc in H. unfold bind at 1 in H.
  destruct (it_next el it s) as [r1 s1] eqn:E. assert (P1 : r1 <> Panic) by (intros ->; injection H as <- <-; contradiction).
  destruct (next_item _ _ _ _ _ _ D E P1) as (it' & o & -> & D' & At & X). destruct o as [[e|v]|].
  - injection H as <- <-. destruct X as [X1 X2]. exists (inr (it', inl e)). split; [reflexivity|]. split; [exact At|].
    destruct X2 as (x & Y1 & Y2). exists x. split; [exact Y1|]. destruct Y2 as [[Y2 Y3]|Y2]; [left; split; [exact Y2|nia]|right; exact Y2].
  - rewrite bind_ret in H. destruct X as (X1 & X2 & X3 & l & L & -> & X5 & X4). destruct (IH _ _ _ _ _ D' H P) as (y & -> & At' & Y).
    exists y. split; [reflexivity|]. split; [congruence|]. destruct y as [|[it2 [e|ls]]]; [exact I| |].
    + destruct Y as (x & Y1 & Y2). exists x. split; [exact Y1|]. destruct Y2 as [[Y2 Y3]|Y2]; [left; split; [exact Y2|]|right; exact Y2].
      rewrite X2 in Y3. rewrite X5, lenN_app. unfold lenN at 1. rewrite L. nia.
    + destruct Y as (raw & Y1 & Y2 & -> & Y3 & Y4). exists (l :: raw). split; [rewrite X2 in Y1; unfold lenN in *; cbn [length]; lia|].
      split; [constructor; assumption|]. split; [cbn [rev map]; rewrite <- app_assoc; reflexivity|]. split; [congruence|].
      intros bs G. cbn [concat]. rewrite app_assoc. apply Y4, X4, G.
  - injection H as <- <-. destruct X as (X1 & -> & ->). exists (inr (it, inr (rev acc))). split; [reflexivity|]. split; [exact At|].
    exists []. split; [rewrite X1; reflexivity|]. split; [constructor|]. split; [cbn; rewrite app_nil_r; reflexivity|]. split; [reflexivity|]. intros bs G. cbn. rewrite app_nil_r. exact G.
Qed.

Lemma next_any : forall A (el : elem A) it s it' o s', it_next el it s = (Ok (it', o), s') ->
  match o with
  | None => it_rest it = 0%N /\ it' = it
  | Some (inr v) => (0 < it_rest it)%N /\ it_rest it' = (it_rest it - 1)%N /\ it_err it' = it_err it /\
      exists l, length l = el_size el /\ v = el_dec el l
  | Some (inl e) => exists x, e_error e = EIo x
  end.
Proof.
  intros A el it s it' o s' H. unfold it_next in H. destruct (N.eqb_spec (it_rest it) 0) as [Z|Z].
  { injection H as <- <- <-. auto. }
  destruct (it_dec it) as [|st] eqn:D; cbn [dec_read] in H; rewrite bind_assoc in H.
  - unfold try_read, rdop in H. unfold bind at 1 in H. destruct (rd_exact (el_size el) (p_rd s)) as [[[e|l]|] r'] eqn:E; cbn in H; try discriminate; injection H as <- <- <-.
    + exists e. reflexivity.
    + cbn. split; [lia|]. split; [reflexivity|]. split; [reflexivity|]. exists l. apply rd_exact_spec in E. destruct E as (_ & E2 & _). auto.
  - mstep H as x s1 E1; try discriminate. destruct x as [[e|bs] st']; rewrite bind_ret in H.
    + injection H as <- <- <-. eexists. reflexivity.
    + destruct (Nat.eqb_spec (length bs) (el_size el)); injection H as <- <- <-; [|eexists; reflexivity].
      cbn. split; [lia|]. split; [reflexivity|]. split; [reflexivity|]. exists bs. auto.
Qed.
Lemma collect_any : forall A (el : elem A) n it acc s y s', nloop n (collect_step el) (it, acc) s = (Ok (inr y), s') ->
  match snd y with
  | inr l => exists raw, lenN raw = it_rest it /\ Forall (fun x => length x = el_size el) raw /\ l = rev acc ++ map (el_dec el) raw /\ it_err (fst y) = it_err it
  | inl e => exists x, e_error e = EIo x
  end.
Proof.
  intros A el. induction n as [|n IH]; intros it acc s y s' H; cbn [nloop] in H; [discriminate|].
  unfold collect_step at 1 in H. rewrite bind_assoc in H. mstep H as x s1 E; try discriminate. destruct x as [it' o]. apply next_any in E.
  destruct o as [[e|v]|]; rewrite bind_ret in H.
  - injection H as <- <-. exact E.
  - destruct E as (X1 & X2 & X3 & l & L & ->). apply IH in H. destruct (snd y) as [e|ls]; [exact H|].
    destruct H as (raw & Y1 & Y2 & -> & Y3). exists (l :: raw). split; [rewrite X2 in Y1; unfold lenN in *; cbn [length]; lia|].
    split; [constructor; assumption|]. split; [cbn [rev map]; rewrite <- app_assoc; reflexivity|congruence].
  - injection H as <- <-. destruct E as (E & ->). exists []. split; [rewrite E; reflexivity|]. split; [constructor|]. split; [cbn; rewrite app_nil_r; reflexivity|reflexivity].
Qed.

Lemma run_z_noerr : forall A (p : zprog A) s e s', run_z p s <> (Err e, s').
Proof.
  intros A p. induction p as [a|n k IH|n k IH]; intros s e s' H; cbn [run_z] in H; [discriminate| |]; mstep H as x s1 E1; try discriminate; try (eapply IH; exact H).
  - unfold try_read, rdop in E1. destruct (rd_exact _ _) as [[|] ?]; discriminate.
  - unfold rdop in E1. destruct (rd_to_end _ _) as [[|] ?]; discriminate.
Qed.

Lemma next_noerr : forall A (el : elem A) it s e s', it_next el it s <> (Err e, s').
Proof.
  intros A el it s e s' H. unfold it_next in H. destruct (_ =? _)%N; [discriminate|]. mstep H as x s1 E1; [destruct x as [d [x|x]]; discriminate| |discriminate].
  destruct (it_dec it); cbn [dec_read] in E1; mstep E1 as y s2 E2; try discriminate.
  - unfold try_read, rdop in E2. destruct (rd_exact _ _) as [[|] ?]; discriminate.
  - destruct y. discriminate.
  - eapply run_z_noerr. exact E2.
Qed.
Lemma collect_noerr : forall A (el : elem A) n x s e s', nloop n (collect_step el) x s <> (Err e, s').
Proof.
  intros A el. induction n as [|n IH]; intros [it acc] s e s' H; cbn [nloop] in H; [discriminate|].
  unfold collect_step at 1 in H. rewrite bind_assoc in H. mstep H as x s1 E; [|eapply next_noerr; exact E|discriminate]. destruct x as [it' [[?|?]|]]; rewrite bind_ret in H; try discriminate. eapply IH. exact H.
Qed.
Lemma quieta_rpos : forall s s', quieta s s' -> (rpos s <= rpos s')%N.
Proof. intros s s' Q. apply WarnPos.quiet_rpos. apply Q. Qed.

(** ** Loading *)
Definition outcome (r : res perr aval) (s s' : pstate) : Prop :=
  match r with
  | Ok v => exists a0 a, p_attrs s = Some a0 /\ p_attrs s' = Some a /\ a_rest a = a_rest a0 /\ a_total a = a_total a0 /\
      stored data off v (rpos s') (a_next a)
  | Err e => refused e s' \/ load_error_true data off (rpos s') (e_error e)
  | Panic => True
  end.

Lemma short_outcome : forall k s e s0 s', io_short k s e ->
  ((lenN (rem s) < k)%N -> cut_attribute data off) -> outcome (Err e) s0 s'.
Proof.
  intros k s e s0 s' (x & E & [[-> H]|[c ->]]) C; right; unfold load_error_true; rewrite E; [right; auto|exact I].
Qed.

Lemma special : forall t (f : list byte -> aval) (chk : list byte -> bool) s r s',
  t = TBinary /\ f = VBinary /\ (forall l, chk l = true) \/ t = TString /\ f = VString /\ chk = utf8_valid ->
  got [spec_code t] s ->
  load_special (fun _ => RToEnd (fun r => RRet match r with
     | (Some e, _) => inl (err_from (EIo e))
     | (None, bs) => if chk bs then inr (f bs) else inl (err_from (EIo IoUtf8)) end)) s = (r, s') -> outcome r s s'.
Proof.
  intros t f chk s r s' K G H. unfold load_special in H. mstep H as n s1 E1; [| |subst; exact I].
  2: { subst r. eapply short_outcome; [eapply uint_err; exact E1|]. intros S. pose proof (got_short _ _ _ G S) as S'. change (lenN [_]) with 1%N in S'.
       right. exists t. split; [eapply got_at; [exact G|discriminate]|]. destruct K as [(-> & _)|(-> & _)]; cbn; lia. }
  destruct (got_uint _ _ _ _ _ G E1) as (G1 & U & F1). mstep H as u s2 E2; [| |subst; exact I].
  2: { subst r. apply update_ok in E2; [|discriminate]. destruct E2 as ([=] & _). }
  apply update_ok in E2; [|discriminate]. destruct E2 as (_ & R2 & a & A2 & N2 & a0 & A0 & AR0 & AT0). pose proof (got_same _ _ _ G1 R2) as G2.
  cbn [run_rd] in H. rewrite bind_assoc in H. unfold reader_pos at 1 in H. rewrite bind_gets in H. rewrite bind_assoc in H. unfold rdop in H. unfold bind at 1 in H.
  destruct (rd_to_end n (p_rd s2)) as [[[o bs]|] r'] eqn:E; [|injection H as <- <-; exact I].
  pose proof (rd_to_end_codes _ _ _ _ E) as (cs & _ & K2). apply rd_to_end_spec in E. destruct E as (E1' & E2 & (_ & _ & E3 & _) & _ & E5).
  unfold reader_pos in H. rewrite bind_assoc, bind_gets, bind_ret in H. cbn [fst] in K2.
  assert (AT : at_offset data off (spec_code t :: le_enc 4 n)) by exact (got_at _ _ G2 ltac:(discriminate)).
  destruct o as [e|]; [destruct K2 as (c & -> & _); injection H as <- <-; right; exact I|].
  specialize (E5 eq_refl).
  assert (B : bs = takeN n (dropN (off + 5) data)).
  { rewrite E5. f_equal. destruct G2 as [G2 _]. change (s_rem (r_stream (p_rd s2))) with (rem s2). rewrite <- dropN_dropN, G2.
    assert (L5 : lenN ([spec_code t] ++ le_enc 4 n) = 5%N) by (rewrite lenN_app, le_enc_lenN; reflexivity). rewrite <- L5. symmetry. apply dropN_app_len. }
  assert (P : r_pos r' = (off + 5 + lenN bs)%N) by (rewrite E3; destruct G2 as [_ G2]; unfold rpos in G2; rewrite G2, lenN_app, le_enc_lenN; cbn; lia).
  assert (NX : a_next a = (off + 5 + n)%N) by (rewrite N2; destruct G1 as [_ ->]; rewrite lenN_app, le_enc_lenN; cbn; lia).
  destruct (chk bs) eqn:C; injection H as <- <-.
  - exists a0, a. split; [rewrite F1 in A0; exact A0|]. split; [exact A2|]. split; [exact AR0|]. split; [exact AT0|]. cbn [rpos p_rd set_rd]. rewrite NX. unfold rpos. cbn [p_rd set_rd]. rewrite P.
    destruct K as [(-> & -> & K)|(-> & -> & ->)]; [apply St_binary|apply St_string]; assumption.
  - right. destruct K as [(-> & -> & K)|(-> & -> & ->)]; [rewrite K in C; discriminate|]. right. exists n. split; [exact AT|]. split; [exact U|]. rewrite <- B. exact C.
Qed.

(** Elements as the specification stores them. *)
Record array_kind {A} (t : atype) (el : elem A) (f : list A -> aval) : Prop := {
  ak_type : forall l, aval_type (f l) = t;
  ak_size : item_size t = Some (N.of_nat (el_size el));
  ak_items : forall raw, Forall (fun x => length x = el_size el) raw -> array_items (f (map (el_dec el) raw)) raw
}.
Lemma array_load : forall A t (el : elem A) f st ix s r s', array_kind t el f -> got [spec_code t] s ->
  load_array el (fun _ => collect_as f) st ix s = (r, s') -> outcome r s s'.
Proof.
  intros A t el f st ix s r s' K G H. destruct K as [KT KS KI]. assert (AR : is_array t) by (unfold is_array; rewrite KS; discriminate).
  assert (TC : at_offset data off [spec_code t]) by (eapply got_at; [exact G|discriminate]).
  assert (CUT : (lenN data < off + 13)%N -> cut_attribute data off) by (intros L; right; exists t; split; [exact TC|]; rewrite KS; left; exact L).
  unfold load_array, read_array_header in H. rewrite bind_assoc in H. mstep H as count s1 E1; [| |subst; exact I].
  2: { subst r. eapply short_outcome; [eapply uint_err; exact E1|]. intros S. pose proof (got_short _ _ _ G S) as S'. change (lenN [_]) with 1%N in S'. apply CUT. lia. }
  destruct (got_uint _ _ _ _ _ G E1) as (G1 & U1 & F1). rewrite bind_assoc in H. mstep H as enc s2 E2; [| |subst; exact I].
  2: { subst r. eapply short_outcome; [eapply uint_err; exact E2|]. intros S. pose proof (got_short _ _ _ G1 S) as S'. rewrite lenN_app, le_enc_lenN in S'. change (lenN [_]) with 1%N in S'. apply CUT. lia. }
  destruct (got_uint _ _ _ _ _ G1 E2) as (G2 & U2 & F2).
  destruct (enc_of_u32 enc) as [en|] eqn:EN.
  2: { injection H as <- <-. right. exists t, count. split; [exact AR|]. split; [pose proof (got_at _ _ G2 ltac:(discriminate)) as X; exact X|].
       split; [exact U2|]. split; [destruct enc as [|[| |]]; try discriminate; lia|]. destruct G2 as [_ ->]. rewrite !lenN_app, !le_enc_lenN. cbn. lia. }
  rewrite bind_assoc in H. mstep H as len s3 E3; [| |subst; exact I].
  2: { subst r. eapply short_outcome; [eapply uint_err; exact E3|]. intros S. pose proof (got_short _ _ _ G2 S) as S'. rewrite !lenN_app, !le_enc_lenN in S'. change (lenN [_]) with 1%N in S'. apply CUT. lia. }
  destruct (got_uint _ _ _ _ _ G2 E3) as (G3 & U3 & F3). rewrite bind_ret in H.
  mstep H as u s4 E4; [| |subst; exact I].
  2: { subst r. apply update_ok in E4; [|discriminate]. destruct E4 as ([=] & _). }
  apply update_ok in E4; [|discriminate]. destruct E4 as (_ & R4 & a & A4 & N4 & a0 & A0 & AR0 & AT0). rewrite F3 in A0; cbn [p_attrs set_rd] in A0; rewrite F2 in A0; cbn [p_attrs set_rd] in A0; rewrite F1 in A0; cbn [p_attrs set_rd] in A0. pose proof (got_same _ _ _ G3 R4) as G4.
  replace (([spec_code t] ++ le_enc 4 count) ++ le_enc 4 enc) with (spec_code t :: le_enc 4 count ++ le_enc 4 enc) in G4 by reflexivity.
  assert (HB : (((([spec_code t] ++ le_enc 4 count) ++ le_enc 4 enc) ++ le_enc 4 len) = array_head t count enc len)) by (unfold array_head; cbn [app]; rewrite <- app_assoc; reflexivity).
  assert (G5 : got (array_head t count enc len) s4) by (rewrite <- HB; exact G4). clear G4.
  assert (HL : lenN (array_head t count enc len) = 13%N) by (rewrite <- HB, !lenN_app, !le_enc_lenN; reflexivity).
  assert (HD : array_head_at data off t count enc len) by (split; [eapply got_at; [exact G5|discriminate]|auto]).
  assert (NX : a_next a = (off + 13 + len)%N) by (rewrite N4; unfold rpos; rewrite <- R4; destruct G5 as [_ G5]; unfold rpos in G5; rewrite G5, HL; reflexivity).
  mstep H as d s5 E5; [| |subst; exact I].
  2: { subst r. destruct en; cbn [mk_decoder] in E5; [discriminate|]. mstep E5 as o s6 E6; try discriminate.
       - destruct o; [|discriminate]. injection E5 as <- <-. right. exists t, count, len. destruct enc as [|[| |]]; try discriminate. auto.
       - exfalso. eapply run_z_noerr. exact E6. }
  unfold collect_as in H. cbn [run_seq] in H. rewrite bind_assoc in H. mstep H as x s6 E6; [| |subst; exact I].
  2: { exfalso. unfold it_collect in E6. mstep E6 as y s7 E7; [destruct y; discriminate| |discriminate]. rewrite mloop_nloop in E7. revert E7. apply collect_noerr. }
  destruct x as [it' o]. rewrite bind_ret in H.
  pose proof E6 as E7'. unfold it_collect in E6. mstep E6 as y s7 E7; try discriminate. destruct y as [|[it2 o2]]; [discriminate|]. injection E6 as <- <- <-.
  rewrite mloop_nloop in E7. cbn [it_rest] in E7.
  pose proof (collect_any _ _ _ _ _ _ _ _ E7) as Y. cbn [snd fst] in Y.
  destruct en.
  - injection E5 as <- <-. assert (enc = 0%N) as -> by (destruct enc as [|[| |]]; try discriminate; reflexivity).
    destruct (collect_items _ _ _ (mkIter DDirect count false false) _ _ _ _ eq_refl E7 ltac:(discriminate)) as (y & [= <-] & At & Z). cbn [it_rest it_err] in Y, Z. destruct o2 as [e|l].
    + cbn [lift] in H. rewrite bind_throw in H. injection H as <- <-. eapply short_outcome; [exact Z|]. intros S. pose proof (got_short _ _ _ G5 S) as S'. rewrite HL in S'.
      right. exists t. split; [exact TC|]. rewrite KS. right. exists count, len. auto.
    + destruct Z as (raw & Z1 & Z2 & -> & Z3 & Z4). specialize (Z4 _ G5). cbn [lift] in H. rewrite bind_ret in H. cbn [rev app] in H.
      mstep H as w s8 E8; [|subst r; left; eapply warn_bool_err; exact E8|subst; exact I]. destruct w. apply warn_bool_ok in E8. destruct E8 as (R8 & A8).
      rewrite Z3 in H. injection H as <- <-. exists a0, a. split; [exact A0|]. split; [congruence|]. split; [exact AR0|]. split; [exact AT0|]. rewrite NX.
      assert (P : rpos s8 = (off + 13 + lenN (concat raw))%N) by (unfold rpos; rewrite R8; destruct Z4 as [_ Z4]; unfold rpos in Z4; rewrite Z4, lenN_app, HL; lia).
      rewrite P. apply (St_array data off _ raw len); [apply KI; assumption| |]; rewrite KT, Z1; [exact HD|]. eapply got_at; [exact Z4|discriminate].
  - assert (enc = 1%N) as -> by (destruct enc as [|[| |]]; try discriminate; reflexivity).
    assert (CP : compressed_at data off) by (exists t, count, len; auto).
    pose proof (steps_elim _ _ _ _ _ _ (mk_decoder_quiet EncZlib) E5 ltac:(discriminate)) as Q5.
    pose proof (steps_elim _ _ _ _ _ _ (it_collect_quiet _ _ _) E7' ltac:(discriminate)) as Q7. cbn [it_rest it_err] in Y.
    destruct o2 as [e|l].
    + cbn [lift] in H. rewrite bind_throw in H. injection H as <- <-. right. destruct Y as (x & ->). destruct x; cbn; auto.
    + destruct Y as (raw & Z1 & Z2 & -> & Z3). cbn [lift] in H. rewrite bind_ret in H. cbn [rev app] in H.
      mstep H as w s8 E8; [|subst r; left; eapply warn_bool_err; exact E8|subst; exact I]. destruct w. apply warn_bool_ok in E8. destruct E8 as (R8 & A8).
      rewrite Z3 in H. injection H as <- <-. exists a0, a. split; [exact A0|]. split; [rewrite A8, (proj2 Q7), (proj2 Q5); exact A4|]. split; [exact AR0|]. split; [exact AT0|]. rewrite NX.
      apply (St_zip data off _ raw len); [apply KI; assumption|rewrite KT, Z1; exact HD|].
      destruct G5 as [_ G5]. rewrite HL in G5. apply quieta_rpos in Q5. apply quieta_rpos in Q7. unfold rpos in *. rewrite R8. lia.
Qed.

Lemma ak_bool : array_kind TArrBool el_bool VArrBool.
Proof.
  split; [reflexivity|reflexivity|]. intros raw F. exists (map (hd x00) raw). split.
  - rewrite map_map. induction F as [|x raw Hx F IH]; [reflexivity|]. cbn [map]. rewrite <- IH. f_equal. destruct x as [|b [|c x]]; try discriminate. reflexivity.
  - rewrite map_map. reflexivity.
Qed.
Lemma sint_items : forall k raw, (0 < k)%nat -> Forall (fun x => length x = k) raw ->
  raw = map (i_enc k) (map (i_dec k) raw) /\ Forall (i_ok k) (map (i_dec k) raw).
Proof.
  intros k raw Hk F. induction F as [|x raw Hx F [IH1 IH2]]; [split; [reflexivity|constructor]|]. cbn [map]. destruct (i_enc_dec k x Hk Hx) as [-> O].
  split; [congruence|constructor; assumption].
Qed.
Lemma uint_items : forall k raw, Forall (fun x => length x = k) raw ->
  raw = map (le_enc k) (map le_dec raw) /\ Forall (u_ok k) (map le_dec raw).
Proof.
  intros k raw F. induction F as [|x raw Hx F [IH1 IH2]]; [split; [reflexivity|constructor]|]. cbn [map]. rewrite <- Hx at 1. rewrite le_enc_dec.
  split; [congruence|constructor; [|exact IH2]]. pose proof (le_dec_bound x) as B. unfold u_ok. unfold lenN in B. rewrite Hx in B. exact B.
Qed.
Lemma ak_i32 : array_kind TArrI32 el_i32 VArrI32.
Proof. split; [reflexivity|reflexivity|]. intros raw F. apply sint_items; [lia|exact F]. Qed.
Lemma ak_i64 : array_kind TArrI64 el_i64 VArrI64.
Proof. split; [reflexivity|reflexivity|]. intros raw F. apply sint_items; [lia|exact F]. Qed.
Lemma ak_f32 : array_kind TArrF32 el_f32 VArrF32.
Proof. split; [reflexivity|reflexivity|]. intros raw F. apply uint_items. exact F. Qed.
Lemma ak_f64 : array_kind TArrF64 el_f64 VArrF64.
Proof. split; [reflexivity|reflexivity|]. intros raw F. apply uint_items. exact F. Qed.

Lemma no_items : forall t, at_offset data off [spec_code t] -> item_size t = None -> t <> TBinary -> t <> TString ->
  (lenN data < off + 1 + value_size t)%N -> cut_attribute data off.
Proof. intros t A B C D E. right. exists t. split; [exact A|]. rewrite B. destruct t; try contradiction; exact E. Qed.

Ltac prim E1 :=
  match goal with
  | G : got [spec_code ?t] ?s |- outcome (Err _) _ _ =>
      eapply short_outcome; [exact E1|]; intros S; apply (no_items t);
      [eapply got_at; [exact G|discriminate]|reflexivity|discriminate|discriminate|];
      pose proof (got_short _ _ _ G S) as S'; change (lenN [_]) with 1%N in S'; cbn in S' |- *; lia
  end.
Lemma number : forall B (pr : M B) (enc : B -> list byte) (good : B -> Prop) k t (f : B -> aval) s r s',
  (forall bs s0 v s1, got bs s0 -> pr s0 = (Ok v, s1) -> got (bs ++ enc v) s1 /\ good v /\ s1 = set_rd (p_rd s1) s0) ->
  (forall s0 e s1, pr s0 = (Err e, s1) -> io_short k s0 e) ->
  (forall v, lenN (enc v) = k) -> item_size t = None -> t <> TBinary -> t <> TString -> value_size t = k ->
  (forall v, at_offset data off (spec_code t :: enc v) -> good v -> stored data off (f v) (off + (1 + k)) (off + (1 + k))) ->
  got [spec_code t] s -> (let* v := pr in update_next_attr_start_offset 0 ;; lift (inr (f v))) s = (r, s') -> outcome r s s'.
Proof.
  intros B pr enc good k t f s r s' HO HE HK T1 T2 T3 T4 HS G H.
  mstep H as v s1 E1; [| |subst; exact I].
  2: { subst r. eapply short_outcome; [eapply HE; exact E1|]. intros S. apply (no_items t); [eapply got_at; [exact G|discriminate]|assumption..|].
       pose proof (got_short _ _ _ G S) as S'. change (lenN [_]) with 1%N in S'. lia. }
  destruct (HO _ _ _ _ G E1) as (G1 & K & F1). mstep H as u s2 E2; [| |subst; exact I].
  2: { apply update_ok in E2; [|discriminate]. destruct E2 as ([=] & _). }
  apply update_ok in E2; [|discriminate]. destruct E2 as (_ & R2 & a & A2 & N2 & a0 & A0 & X1 & X2). rewrite F1 in A0.
  injection H as <- <-. exists a0, a. split; [exact A0|]. split; [exact A2|]. split; [exact X1|]. split; [exact X2|].
  destruct G1 as [GA GB]. rewrite lenN_app, HK in GB. change (lenN [_]) with 1%N in GB.
  assert (P : rpos s2 = (off + (1 + k))%N) by (unfold rpos in *; rewrite R2, GB; reflexivity). rewrite P, N2, GB, N.add_0_r.
  apply HS; [|exact K]. eapply at_offset_drop; [exact GA|discriminate].
Qed.
Lemma load_impl : forall b t st ix s r s', got [spec_code t] s -> load_next_impl b t direct_loader st ix s = (r, s') -> outcome r s s'.
Proof.
  intros b t st ix s r s' G H. destruct t; cbn [load_next_impl direct_loader ld_bool ld_i16 ld_i32 ld_i64 ld_f32 ld_f64 ld_abool ld_ai32 ld_ai64 ld_af32 ld_af64 ld_bin ld_str ld_bin_buf ld_str_buf] in H.
  - mstep H as x s1 E1; [| |subst; exact I]; [|subst r; apply u8_err in E1; prim E1].
    destruct (got_u8 _ _ _ _ G E1) as (G1 & F1). mstep H as u s2 E2; [| |subst; exact I].
    2: { apply update_ok in E2; [|discriminate]. destruct E2 as ([=] & _). }
    apply update_ok in E2; [|discriminate]. destruct E2 as (_ & R2 & a & A2 & N2 & a0 & A0 & X1 & X2). rewrite F1 in A0.
    mstep H as w s3 E3; [|subst r; left; eapply warn_bool_err; exact E3|subst; exact I]. destruct w. apply warn_bool_ok in E3. destruct E3 as (R3 & A3).
    injection H as <- <-. exists a0, a. split; [exact A0|]. split; [congruence|]. split; [exact X1|]. split; [exact X2|].
    destruct G1 as [GA GB]. assert (P : rpos s3 = (off + 2)%N) by (unfold rpos in *; rewrite R3, R2, GB; reflexivity). rewrite P, N2, GB. cbn [app].
    replace (off + lenN [spec_code TBool; x] + 0)%N with (off + 2)%N by (cbn; lia). apply St_bool. eapply at_offset_drop; [exact GA|discriminate].
  - apply (number Z (parse_sint 2) (i_enc 2) (i_ok 2) 2 TI16 VI16); try assumption; try reflexivity; try discriminate;
    [intros; apply got_sint; auto; lia|apply sint_err|intros; apply St_i16; assumption].
  - apply (number Z (parse_sint 4) (i_enc 4) (i_ok 4) 4 TI32 VI32); try assumption; try reflexivity; try discriminate;
    [intros; apply got_sint; auto; lia|apply sint_err|intros; apply St_i32; assumption].
  - apply (number Z (parse_sint 8) (i_enc 8) (i_ok 8) 8 TI64 VI64); try assumption; try reflexivity; try discriminate;
    [intros; apply got_sint; auto; lia|apply sint_err|intros; apply St_i64; assumption].
  - apply (number N (parse_uint 4) (le_enc 4) (u_ok 4) 4 TF32 VF32); try assumption; try reflexivity; try discriminate;
    [intros; apply got_uint; auto|apply uint_err|intros; apply St_f32; assumption].
  - apply (number N (parse_uint 8) (le_enc 8) (u_ok 8) 8 TF64 VF64); try assumption; try reflexivity; try discriminate;
    [intros; apply got_uint; auto|apply uint_err|intros; apply St_f64; assumption].
  - eapply array_load; [apply ak_bool|exact G|exact H].
  - eapply array_load; [apply ak_i32|exact G|exact H].
  - eapply array_load; [apply ak_i64|exact G|exact H].
  - eapply array_load; [apply ak_f32|exact G|exact H].
  - eapply array_load; [apply ak_f64|exact G|exact H].
  - destruct b; eapply (special TBinary VBinary (fun _ => true)); eauto.
  - destruct b; eapply (special TString VString utf8_valid); eauto.
Qed.
End WithEnv.

Section Body.
Context {env : Env}.
Context (data : list byte) (ver : N).

Lemma load_said : forall b st ix s a r s', inv data ver s -> p_attrs s = Some a -> load_body b direct_loader st ix s = (r, s') ->
  match r with
  | Ok (Some v) => (0 < a_rest a)%N /\ exists a', p_attrs s' = Some a' /\ a_rest a' = (a_rest a - 1)%N /\ a_total a' = a_total a /\
      stored data (N.max (rpos s) (a_next a)) v (rpos s') (a_next a')
  | Ok None => a_rest a = 0%N /\ s' = s
  | Err e => (0 < a_rest a)%N /\ (refused e s' \/ load_error_true data (N.max (rpos s) (a_next a)) (rpos s') (e_error e))
  | Panic => True
  end.
Proof.
  intros b st ix s a r s' IV Ha H. set (off := N.max (rpos s) (a_next a)).
  unfold load_body, read_next_attr_type, get_attrs in H. rewrite !bind_assoc, bind_gets, Ha, bind_ret in H.
  destruct (N.eqb_spec (a_rest a) 0) as [Z|Z]. { rewrite bind_ret in H. injection H as <- <-. auto. }
  rewrite bind_assoc in H. unfold reader_pos in H. rewrite bind_gets, bind_assoc in H.
  assert (SK : forall s1, when (r_pos (p_rd s) <? a_next a)%N (m_skip_to (a_next a)) s = (Ok tt, s1) -> s1 = set_rd (p_rd s1) s /\ got data off [] s1).
  { intros s1 E. destruct IV as [_ S R _ _]. destruct (N.ltb_spec (r_pos (p_rd s)) (a_next a)) as [L|L]; cbn [when] in E.
    - unfold m_skip_to, rdop in E. unfold bind in E. destruct (skip_to (a_next a) (p_rd s)) as [[[e|]|] r'] eqn:K; try discriminate. injection E as <-. split; [reflexivity|].
      apply skip_to_spec in K. rewrite S in K. destruct K as (K & M1 & _ & M3 & _). unfold got, rem, rpos in *. cbn [p_rd set_rd app]. rewrite M1, M3, R, dropN_dropN. unfold off. cbn.
      split; [f_equal; unfold rpos; lia|unfold rpos; lia].
    - injection E as <-. split; [destruct s; reflexivity|]. unfold got. cbn [app lenN]. unfold off. replace (N.max (rpos s) (a_next a)) with (rpos s) by (unfold rpos; lia). rewrite R. cbn. split; [reflexivity|lia]. }
  mstep H as u s1 E1; [| |subst; exact I].
  2: { subst r. split; [lia|]. right. destruct (_ <? _)%N; cbn [when] in E1; [|discriminate]. unfold m_skip_to, rdop in E1. unfold bind in E1.
       destruct (skip_to (a_next a) (p_rd s)) as [[[x|]|] r'] eqn:K; try discriminate. injection E1 as <- <-.
       apply skip_to_codes in K. destruct K as (cs & _ & c & -> & _). exact I. }
  destruct u. destruct (SK _ E1) as (F1 & G1). unfold read_attr_type in H. rewrite !bind_assoc in H. mstep H as x s2 E2; [| |subst; exact I].
  2: { subst r. split; [lia|]. right. apply u8_err in E2. destruct E2 as (y & EY & [[-> L]|[c ->]]); unfold load_error_true; rewrite EY; [|exact I]. right. left.
       pose proof (got_short _ _ _ _ _ G1 L) as S. change (lenN []) with 0%N in S. unfold off in *. lia. }
  destruct (got_u8 _ _ _ _ _ _ G1 E2) as (G2 & F2). cbn [app] in G2. destruct (type_of_code x) as [t|] eqn:T.
  2: { rewrite bind_throw in H. injection H as <- <-. split; [lia|]. right. split; [eapply got_at; [exact G2|discriminate]|]. split; [apply code_none; exact T|]. apply G2. }
  rewrite bind_ret, bind_assoc, bind_modify, bind_ret in H. apply code_some in T. subst x.
  assert (G3 : got data off [spec_code t] (set_attrs (Some (mkAttrs (a_total a) (a_rest a - 1)%N (a_next a))) s2)) by exact G2.
  mstep H as v s3 E3; [| |subst; exact I].
  2: { subst r. split; [lia|]. exact (load_impl _ _ _ _ _ _ _ _ _ G3 E3). }
  injection H as <- <-. pose proof (load_impl _ _ _ _ _ _ _ _ _ G3 E3) as O. destruct O as (a0 & a' & [= <-] & A' & X1 & X2 & X3). cbn [a_rest a_total] in *.
  split; [lia|]. exists a'. auto.
Qed.
End Body.
