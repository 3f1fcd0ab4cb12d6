(** What a reading client is handed takes no more space than the bytes it was read from (for C72). *)
Require Import Coq.Lists.List Coq.NArith.NArith Coq.ZArith.ZArith Coq.Bool.Bool Coq.micromega.Lia.
Require Import Verif.Base Verif.BaseFacts Verif.Utf8 Verif.Types Verif.Io Verif.IoFacts Verif.Parser Verif.Loaders Verif.MonadFacts Verif.Spec Verif.SpecFacts Verif.SpecTruth Verif.SpecStored Verif.StoredFacts Verif.ReadFacts Verif.ParserShape Verif.ParserSteps Verif.ParserHist Verif.ParserPos Verif.LayoutIn Verif.PropsSafety Verif.Tree Verif.TreeSpec Verif.PropsTreeEq Verif.TreeIoSpec.
Import ListNotations.
Local Open Scope nat_scope.

(** The bytes that the elements of an array take when they are not compressed. *)
Definition array_bytes (v : aval) : N :=
  match v with
  | VArrBool l => lenN l
  | VArrI32 l => 4 * lenN l
  | VArrI64 l => 8 * lenN l
  | VArrF32 l => 4 * lenN l
  | VArrF64 l => 8 * lenN l
  | _ => 0
  end%N.

(** The bytes that an attribute takes apart from the elements of an array. *)
Definition core_bytes (v : aval) : N :=
  match v with
  | VBool _ => 2
  | VI16 _ => 3
  | VI32 _ | VF32 _ => 5
  | VI64 _ | VF64 _ => 9
  | VString s | VBinary s => 5 + lenN s
  | _ => 13
  end%N.

Definition core_fits (v : aval) : Prop :=
  match v with VString s | VBinary s => u_ok 4 (lenN s) | _ => True end.

Section WithEnv.
Context {env : Env}.

Lemma at_offset_len : forall data off bs, at_offset data off bs -> (off + lenN bs <= lenN data)%N.
Proof. intros data off bs (pre & post & -> & <-). rewrite !lenN_app. lia. Qed.

Lemma array_head_len : forall t c e l, lenN (array_head t c e l) = 13%N.
Proof. intros. unfold array_head. rewrite lenN_cons, !lenN_app, !le_enc_lenN. reflexivity. Qed.

(** A stored attribute lies within the file, and strings have 32-bit lengths. *)
Lemma stored_core : forall data off v fin next, stored data off v fin next ->
  (off + core_bytes v <= fin)%N /\ (off + core_bytes v <= lenN data)%N /\ core_fits v.
Proof.
  assert (L : forall (x : byte) l, lenN (x :: l) = (1 + lenN l)%N) by (intros x l; rewrite lenN_cons; lia).
  assert (A : forall data off v raw e len, array_items v raw -> array_head_at data off (aval_type v) (lenN raw) e len ->
    core_bytes v = 13%N /\ (off + 13 <= lenN data)%N /\ core_fits v).
  { intros data off v raw e len I (H & _). apply at_offset_len in H. rewrite array_head_len in H. destruct v; try destruct I; cbn; auto. }
  intros data off v fin next H.
  destruct H as [x H|z H _|z H _|z H _|n H _|n H _|n s H U E|n s H U E V|v raw len I HH H|v raw len fin I HH F].
  1-6: apply at_offset_len in H; rewrite ?L, ?i_enc_lenN, ?le_enc_lenN in H; cbn in *; change (lenN (@nil byte)) with 0%N in *; repeat split; try lia.
  - apply at_offset_len in H. rewrite L, le_enc_lenN in H. cbn [core_bytes core_fits].
    assert (Q : (lenN s <= n /\ lenN s <= lenN data - (off + 5))%N) by (rewrite E, lenN_takeN, lenN_dropN; lia).
    split; [lia|]. split; [lia|]. unfold u_ok in *. lia.
  - apply at_offset_len in H. rewrite L, le_enc_lenN in H. cbn [core_bytes core_fits].
    assert (Q : (lenN s <= n /\ lenN s <= lenN data - (off + 5))%N) by (rewrite E, lenN_takeN, lenN_dropN; lia).
    split; [lia|]. split; [lia|]. unfold u_ok in *. lia.
  - destruct (A _ _ _ _ _ _ I HH) as (-> & ? & ?). split; [lia|]. auto.
  - destruct (A _ _ _ _ _ _ I HH) as (-> & ? & ?). split; [lia|]. auto.
Qed.

Lemma fwd_len : forall s s', rd_fwd (p_rd s) (p_rd s') -> (lenN (rem s') <= lenN (rem s))%N.
Proof. intros s s' H. apply fwd_rem in H. exact H. Qed.

Lemma impl_costs : forall b t st ix x s v s', load_next_impl b t direct_loader st ix s = (Ok v, s') ->
  forall s0, rem s0 = x :: rem s -> x = spec_code t -> rpos s = (rpos s0 + 1)%N ->
  (core_bytes v + lenN (rem s') <= lenN (rem s0))%N /\ core_fits v.
Proof.
  intros b t st ix x s v s' H s0 R -> P.
  set (off := rpos s0). set (data := zeros (N.to_nat off) ++ rem s0).
  assert (ZL : lenN (zeros (N.to_nat off)) = off) by (unfold lenN, zeros; rewrite repeat_length; lia).
  assert (D : dropN off data = rem s0) by (unfold data; rewrite <- ZL at 1; apply dropN_app_len).
  assert (G : got data off [spec_code t] s) by (split; [rewrite D, R; reflexivity|exact P]).
  pose proof (load_impl data off _ _ _ _ _ _ _ G H) as (a0 & a & _ & _ & _ & _ & S).
  apply stored_core in S. destruct S as (S1 & S2 & S3). split; [|exact S3].
  unfold data in S2. rewrite lenN_app, ZL in S2.
  pose proof (steps_elim _ _ _ _ _ _ (load_next_impl_quiet _ b t direct_loader st ix) H ltac:(discriminate)) as [(_ & _ & _ & _ & _ & _ & _ & F) _].
  destruct F as (d & p & (M1 & _ & M3 & _) & PD & _). unfold rem, rpos in *. rewrite M3 in S1. rewrite M1, lenN_dropN.
  assert (L : lenN (s_rem (r_stream (p_rd s0))) = (1 + lenN (s_rem (r_stream (p_rd s))))%N) by (rewrite R, lenN_cons; lia). unfold off in *. lia.
Qed.

Lemma load_costs : forall s v s', run_op (OLoad direct_loader) s = (Ok (BAttr (Some v)), s') ->
  (core_bytes v + lenN (rem s') <= lenN (rem s))%N /\ core_fits v.
Proof.
  intros s v s' H. cbn [run_op] in H. rewrite bind_gets in H. destruct (p_attrs s) as [a|] eqn:Ha; [|discriminate].
  mstep H as o s1 E1; try discriminate. injection H as -> <-.
  apply load_next_shape in E1; [|discriminate]. destruct (p_health s); [|destruct E1; discriminate|destruct E1; discriminate].
  destruct E1 as (a' & Ha' & r0 & s2 & E & _ & -> & ->). rewrite Ha in Ha'. injection Ha' as <-.
  unfold load_body, read_next_attr_type, get_attrs in E. rewrite !bind_assoc, bind_gets, Ha, bind_ret in E.
  destruct (N.eqb_spec (a_rest a) 0) as [Z|Z]. { rewrite bind_ret in E. discriminate. }
  rewrite bind_assoc in E. unfold reader_pos in E. rewrite bind_gets, bind_assoc in E.
  mstep E as u s3 E1; try discriminate.
  assert (F1 : (lenN (rem s3) <= lenN (rem s))%N).
  { destruct (_ <? _)%N; cbn [when] in E1; [|injection E1 as _ <-; lia]. apply m_skip_to_quieta in E1; [|discriminate]. apply fwd_len, E1. }
  unfold read_attr_type in E. rewrite !bind_assoc in E. mstep E as x s4 E2; try discriminate.
  destruct (type_of_code x) as [t|] eqn:T; [|rewrite bind_throw in E; discriminate].
  rewrite bind_ret, bind_assoc, bind_modify, bind_ret in E. apply code_some in T.
  mstep E as w s5 E3; try discriminate. injection E as -> <-.
  assert (G : got (zeros (N.to_nat (rpos s3)) ++ rem s3) (rpos s3) [] s3).
  { split; [|cbn; lia]. cbn [app]. assert (ZL : lenN (zeros (N.to_nat (rpos s3))) = rpos s3) by (unfold lenN, zeros; rewrite repeat_length; lia). rewrite <- ZL at 1. apply dropN_app_len. }
  destruct (got_u8 _ _ _ _ _ _ G E2) as (G2 & _). cbn [app] in G2. destruct G as [G _], G2 as [G2 P2]. rewrite G in G2. cbn [app] in G2.
  destruct (impl_costs _ _ _ _ x _ _ _ E3 s3) as [A B]; [exact G2|symmetry; exact T|exact P2|]. split; [|exact B]. lia.
Qed.

Lemma start_costs : forall s nm s', run_op (@ONext aval) s = (Ok (BEvent (EvStart nm)), s') ->
  (13 + lenN nm + lenN (rem s') <= lenN (rem s))%N /\ (lenN nm < 256)%N.
Proof.
  intros s nm s' H. apply run_op_shape in H; [|discriminate]. destruct H as (r0 & s1 & H & Hr).
  destruct r0 as [ev|e|]; [|destruct Hr; discriminate|contradiction]. destruct Hr as [[= <-] (n & rest & ES & ->)].
  apply next_event_shape in H; [|discriminate]. change (p_health (set_attrs None s)) with (p_health s) in H.
  destruct (p_health s); [|destruct H; discriminate|destruct H; discriminate].
  destruct H as (_ & r0 & s2 & P & -> & -> & n' & rest' & ES' & <-).
  inversion P as [| | | | | | | | |sA h sB r sC [Sk _] RH NE ST _]; subst.
  pose proof (steps_elim _ _ _ _ _ _ skip_unread_quiet Sk ltac:(discriminate)) as [(_ & _ & _ & _ & _ & _ & _ & F1) _]. apply fwd_len in F1.
  apply header_costs in RH. apply start_node_bytes in ST. destruct ST as (name & S1 & S2 & S3 & S4 & S5 & S6 & S7 & S8 & S9).
  rewrite S8 in ES'. injection ES' as <- _. cbn [sn_name]. change (rem (set_attrs None s)) with (rem s) in F1.
  match goal with |- context [rem ?x] => change (rem x) with (rem s2) end.
  pose proof (bN_lt (nh_nlen h)). unfold rem in *. rewrite S1, lenN_app in RH. lia.
Qed.

Lemma op_mono : forall O (o : op O) s r s', run_op o s = (r, s') -> r <> Panic -> (lenN (rem s') <= lenN (rem s))%N.
Proof. intros O o s r s' H N. pose proof (steps_elim _ _ _ _ _ _ (run_op_fwd _ o) H N) as F. apply fwd_len, F. Qed.

(** The size of what was read, arrays apart. *)
Definition sumN (l : list N) : N := fold_right N.add 0%N l.
Definition item_core (x : item) : N := match x with IStart nm ats => 13 + lenN nm + sumN (map core_bytes ats) | IEnd => 0 end%N.
Definition item_small (x : item) : Prop := match x with IStart nm ats => (lenN nm < 256)%N /\ Forall core_fits ats | IEnd => True end.

Lemma loads_costs : forall s vs r s', loads s vs r s' -> r = Ok tt -> (sumN (map core_bytes vs) + lenN (rem s') <= lenN (rem s))%N /\ Forall core_fits vs.
Proof.
  induction 1 as [s s' H|s v s1 vs r s' H H0 IH|s e s' H|s s' H]; intros E; try discriminate.
  - split; [|constructor]. apply op_mono in H; [|discriminate]. cbn. lia.
  - apply load_costs in H. destruct H as [A B], (IH E) as [C D]. split; [cbn [map sumN fold_right] in *; fold (sumN (map core_bytes vs)) in *; lia|constructor; assumption].
Qed.
Lemma reads_costs : forall s l o s', reads s l o s' -> (sumN (map item_core l) <= lenN (rem s))%N /\ Forall item_small l.
Proof.
  induction 1 as [s f s' H|s nm s1 ats s2 l o s' H L R IH|s s1 l o s' H R IH|s e s' H|s s' H|s nm s1 ats e s' H L|s nm s1 ats s' H L]; try (split; [cbn; lia|constructor]; fail).
  - apply start_costs in H. apply loads_costs in L; [|reflexivity]. destruct H, L, IH. split; [|constructor; [split|]; assumption].
    cbn [map sumN fold_right item_core]. fold (sumN (map item_core l)). lia.
  - apply op_mono in H; [|discriminate]. destruct IH. split; [|constructor; [exact I|assumption]]. cbn [map sumN fold_right item_core]. fold (sumN (map item_core l)). lia.
Qed.
End WithEnv.
