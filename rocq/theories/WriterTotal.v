(** Sinks that do not fail: what the calls of the writer do on them. *)
Require Import Coq.Lists.List Coq.NArith.NArith Coq.ZArith.ZArith Coq.Bool.Bool Coq.micromega.Lia.
Require Import Coq.Init.Byte.
Require Import ZifyBool ZifyNat ZifyN.
Require Import Verif.Base Verif.BaseFacts Verif.Utf8 Verif.Types Verif.Parser Verif.Writer Verif.WriterFacts Verif.Zlib Verif.Spec Verif.SpecFacts Verif.FooterFacts Verif.WriterSpec Verif.WriterSim Verif.WriterNodes.
Import ListNotations.
Ltac Zify.zify_post_hook ::= Z.div_mod_to_equations.
Open Scope writer_scope.

Definition wfails (a : wact) : bool := match a with WZero | WFail _ => true | _ => false end.
Definition sfails (a : option N) : bool := match a with Some _ => true | None => false end.
(** A sink that accepts bytes in any pieces, possibly after interruptions, and never fails. *)
Definition wgood (k : sink) : Prop := existsb wfails (k_writes k) = false /\ existsb sfails (k_seeks k) = false.

Lemma wr_total : forall sc bs data pos, existsb wfails sc = false -> (pos + lenN bs < pow2_63)%N ->
  exists d p sc', wr sc bs data pos = (None, d, p, sc') /\ existsb wfails sc' = false.
Proof.
  induction sc as [|a sc IH]; intros bs data pos H L.
  - destruct bs; cbn [wr]; [eauto 6|]. replace (pos + lenN (b :: bs) <? pow2_63)%N with true by lia. eauto 6.
  - cbn [existsb] in H. apply orb_false_iff in H. destruct H as [H1 H2]. destruct bs as [|b bs].
    + cbn [wr]. do 3 eexists. split; [reflexivity|]. cbn [existsb]. rewrite H1, H2. reflexivity.
    + cbn [wr]. destruct a as [k| | |c]; try discriminate.
      * set (l := b :: bs) in *. pose proof (firstn_skipn (Pos.to_nat k) l) as FS. assert (LE : lenN l = (lenN (firstn (Pos.to_nat k) l) + lenN (skipn (Pos.to_nat k) l))%N) by (rewrite <- lenN_app, FS; reflexivity).
        replace (pos + lenN (firstn (Pos.to_nat k) l) <? pow2_63)%N with true by lia. apply IH; [exact H2|lia].
      * apply IH; assumption.
Qed.

(** [m] succeeds on good sinks at [pre], adding [bs], if there is room. *)
Definition total {A} (m : WM A) (s : wstate) (Q : A -> wstate -> Prop) : Prop := exists a s', m s = (Ok a, s') /\ wgood (w_sink s') /\ Q a s'.

Lemma total_bind : forall A B (m : WM A) (k : A -> WM B) s (P : A -> wstate -> Prop) Q, total m s P ->
  (forall a s', m s = (Ok a, s') -> wgood (w_sink s') -> P a s' -> total (k a) s' Q) -> total (wbind m k) s Q.
Proof.
  intros A B m k s P Q (a & s1 & E & G & HP) K. destruct (K a s1 E G HP) as (b & s2 & E2 & G2 & HQ). exists b, s2. split; [|auto]. unfold wbind. rewrite E. exact E2.
Qed.

Lemma total_imp : forall A (m : WM A) s (P Q : A -> wstate -> Prop), total m s P -> (forall a s', m s = (Ok a, s') -> wgood (w_sink s') -> P a s' -> Q a s') -> total m s Q.
Proof. intros A m s P Q (a & s' & E & G & H) K. exists a, s'. auto. Qed.

Lemma total_write : forall wrap bs s pre old, wgood (w_sink s) -> at_ pre old (w_sink s) -> (lenN (pre ++ bs) < pow2_63)%N ->
  total (write_as wrap bs) s (fun _ s' => same s s' /\ at_ (pre ++ bs) (dropN (lenN bs) old) (w_sink s')).
Proof.
  intros wrap bs s pre old [G1 G2] A L. pose proof A as (D & P & _). rewrite lenN_app in L.
  destruct (wr_total (k_writes (w_sink s)) bs (k_data (w_sink s)) (k_pos (w_sink s)) G1) as (d & p & sc & E & G); [lia|].
  exists tt, (set_sink (mkSink d p sc (k_seeks (w_sink s)) (k_flush (w_sink s))) s).
  assert (EW : write_as wrap bs s = (Ok tt, set_sink (mkSink d p sc (k_seeks (w_sink s)) (k_flush (w_sink s))) s)) by (unfold write_as; rewrite E; reflexivity).
  split; [exact EW|]. split; [split; assumption|]. eapply write_ok; eauto.
Qed.

Lemma total_tell : forall s pre old, wgood (w_sink s) -> at_ pre old (w_sink s) ->
  total tell s (fun p s' => same s s' /\ at_ pre old (w_sink s') /\ p = lenN pre).
Proof.
  intros s pre old [G1 G2] A. assert (E : exists p s', tell s = (Ok p, s') /\ wgood (w_sink s')).
  { unfold tell, k_seek. destruct (k_seeks (w_sink s)) as [|[c|] sk] eqn:ES; [|discriminate|]; (do 2 eexists; split; [reflexivity|]); split; cbn; auto. }
  destruct E as (p & s' & E & G). exists p, s'. split; [exact E|]. split; [exact G|]. eapply tell_ok; eauto.
Qed.

Lemma total_seek : forall p s, wgood (w_sink s) -> total (seek p) s (fun _ s' => same s s' /\ k_data (w_sink s') = k_data (w_sink s) /\ k_pos (w_sink s') = p).
Proof.
  intros p s [G1 G2]. assert (E : exists s', seek p s = (Ok tt, s') /\ wgood (w_sink s')).
  { unfold seek, k_seek. destruct (k_seeks (w_sink s)) as [|[c|] sk] eqn:ES; [|discriminate|]; (eexists; split; [reflexivity|]); split; cbn; auto. }
  destruct E as (s' & E & G). exists tt, s'. split; [exact E|]. split; [exact G|]. apply (seek_any _ _ _ _ E).
Qed.

(** Running [m] at [x] inside [x ++ h ++ y] and going back to the end. *)
Lemma total_patch : forall (m : WM unit) p q s x h y old h', wgood (w_sink s) -> at_ (x ++ h ++ y) old (w_sink s) -> p = lenN x -> q = lenN (x ++ h ++ y) ->
  lenN h' = lenN h ->
  (forall s0 old0, w_ver s0 = w_ver s -> wgood (w_sink s0) -> at_ x old0 (w_sink s0) -> total m s0 (fun _ s1 => same s0 s1 /\ at_ (x ++ h') (dropN (lenN h') old0) (w_sink s1))) ->
  total (seek p ;> m ;> seek q) s (fun _ s' => same s s' /\ at_ (x ++ h' ++ y) old (w_sink s')).
Proof.
  intros m p q s x h y old h' G (D & P & L) -> -> LH K.
  eapply total_bind; [apply total_seek; exact G|]. intros _ s1 _ G1 (S1 & D1 & P1).
  assert (A1 : at_ x (h ++ y ++ old) (w_sink s1)) by (split; [rewrite D1, D, <- !app_assoc; reflexivity|]; split; [exact P1|]; rewrite lenN_app in L; lia).
  eapply total_bind; [apply (K s1 _ (proj1 S1) G1 A1)|]. intros _ s2 _ G2 (S2 & A2).
  destruct (total_seek (lenN (x ++ h ++ y)) s2 G2) as (u & s3 & E3 & G3 & S3 & D3 & P3). exists u, s3. split; [exact E3|]. split; [exact G3|].
  split; [eapply same_trans; [exact S1|]; eapply same_trans; eauto|].
  assert (EL : lenN (x ++ h' ++ y) = lenN (x ++ h ++ y)) by (rewrite !lenN_app; lia).
  split; [|split; [rewrite P3; symmetry; exact EL|rewrite EL; exact L]].
  rewrite D3. destruct A2 as (D2 & _). rewrite D2, <- !app_assoc. f_equal. f_equal. rewrite LH, dropN_app_len. reflexivity.
Qed.

Section WithEnv.
Context {env : Env}.

Lemma total_ret : forall A (a : A) s (Q : A -> wstate -> Prop), wgood (w_sink s) -> Q a s -> total (wret a) s Q.
Proof. intros A a s Q G H. exists a, s. auto. Qed.

(** *** Headers *)
Lemma total_header : forall h s pre old, wgood (w_sink s) -> at_ pre old (w_sink s) -> hdr_fits (w_ver s) h ->
  (lenN (pre ++ hdr_bytes (w_ver s) h) < pow2_63)%N ->
  total (write_node_header h) s (fun _ s' => same s s' /\ at_ (pre ++ hdr_bytes (w_ver s) h) (dropN (lenN (hdr_bytes (w_ver s) h)) old) (w_sink s')).
Proof.
  intros h s pre old G A F L. 
  assert (K : total (write_node_header h) s (fun _ _ => True)).
  { unfold write_node_header. eapply total_bind; [apply total_ret with (Q := fun v s' => v = w_ver s /\ s' = s); auto|]. intros v s0 _ _ [-> ->].
    unfold hdr_bytes, hdr_fits, width in *. 
    assert (WU : forall n e s0 pre0 old0, wgood (w_sink s0) -> at_ pre0 old0 (w_sink s0) -> (n < pow2_32)%N -> (lenN pre0 + 4 < pow2_63)%N ->
       total (write_u32 n e) s0 (fun _ s' => same s0 s' /\ at_ (pre0 ++ le_enc 4 n) (dropN 4 old0) (w_sink s'))).
    { intros n e s0 pre0 old0 G0 A0 Hn L0. unfold write_u32. replace (n <? pow2_32)%N with true by lia. 
      replace 4%N with (lenN (le_enc 4 n)) at 2 by (rewrite le_enc_lenN; reflexivity). apply total_write; auto. rewrite lenN_app, le_enc_lenN. lia. }
    rewrite !lenN_app, !le_enc_lenN in L. 
    destruct (N.ltb_spec (w_ver s) 7500) as [LV|LV].
    - assert (H3 : (nh_end h < pow2_32 /\ nh_attrs h < pow2_32 /\ nh_alen h < pow2_32)%N) by (destruct (F LV) as (F1 & F2 & F3); unfold u_ok, pow2_32 in *; cbn in F1, F2, F3; lia).
      eapply total_bind with (P := fun _ s' => exists o, at_ (pre ++ le_enc 4 (nh_end h) ++ le_enc 4 (nh_attrs h) ++ le_enc 4 (nh_alen h)) o (w_sink s')).
      { eapply total_bind; [apply (WU _ _ _ _ _ G A); lia|]. intros _ s1 _ G1 (S1 & A1).
        eapply total_bind; [apply (WU _ _ _ _ _ G1 A1); rewrite ?lenN_app, ?le_enc_lenN; lia|]. intros _ s2 _ G2 (S2 & A2).
        eapply total_imp; [apply (WU _ _ _ _ _ G2 A2); rewrite ?lenN_app, ?le_enc_lenN; lia|]. intros _ s3 _ G3 (S3 & A3). rewrite <- !app_assoc in A3. eauto. }
      intros _ s3 _ G3 (o & A3). eapply total_imp; [apply (total_write WIo [nh_nlen h] s3 _ _ G3 A3)|trivial]. rewrite !lenN_app, !le_enc_lenN in *; lia.
    - eapply total_bind with (P := fun _ s' => exists o, at_ (pre ++ le_enc 8 (nh_end h) ++ le_enc 8 (nh_attrs h) ++ le_enc 8 (nh_alen h)) o (w_sink s')).
      { eapply total_bind; [apply (total_write WIo _ _ _ _ G A); rewrite ?lenN_app, ?le_enc_lenN; lia|]. intros _ s1 _ G1 (S1 & A1).
        eapply total_bind; [apply (total_write WIo _ _ _ _ G1 A1); rewrite ?lenN_app, ?le_enc_lenN; lia|]. intros _ s2 _ G2 (S2 & A2).
        eapply total_imp; [apply (total_write WIo _ _ _ _ G2 A2); rewrite ?lenN_app, ?le_enc_lenN; lia|]. intros _ s3 _ G3 (S3 & A3). rewrite <- !app_assoc in A3. eauto. }
      intros _ s3 _ G3 (o & A3). eapply total_imp; [apply (total_write WIo [nh_nlen h] s3 _ _ G3 A3)|trivial]. rewrite !lenN_app, !le_enc_lenN in *; lia. }
  destruct K as (u & s' & E & G' & _). exists u, s'. split; [exact E|]. split; [exact G'|]. destruct (wnh_ok _ _ _ _ _ _ E A) as (S & A' & _). auto.
Qed.

(** *** Attributes *)
Lemma total_update : forall s n t, wgood (w_sink s) -> w_open s = n :: t -> (nh_attrs (on_header n) + 1 < pow2_64)%N ->
  total update_node_header s (fun _ s' => w_sink s' = w_sink s).
Proof.
  intros s n t G O L. unfold update_node_header. eapply total_bind; [apply total_ret with (Q := fun l s' => l = w_open s /\ s' = s); auto|].
  intros l s0 _ _ [-> ->]. rewrite O. replace (nh_attrs (on_header n) + 1 <? pow2_64)%N with true by lia. eexists _, _. split; [reflexivity|]. split; [exact G|reflexivity].
Qed.

Lemma total_begin : forall ty s pre old n t, wgood (w_sink s) -> at_ pre old (w_sink s) -> w_open s = n :: t -> (nh_attrs (on_header n) + 1 < pow2_64)%N ->
  (lenN pre + 1 < pow2_63)%N ->
  total (update_node_header ;> write_type_code ty) s (fun _ s' => added [spec_code ty] pre old s s').
Proof.
  intros ty s pre old n t G A O L R.
  assert (K : total (update_node_header ;> write_type_code ty) s (fun _ _ => True)).
  { eapply total_bind; [eapply total_update; eauto|]. intros u s1 _ G1 E1; cbn beta in E1. rewrite <- E1 in A.
    eapply total_imp; [apply (total_write WIo _ _ _ _ G1 A)|trivial]. rewrite lenN_app. change (lenN [type_code ty]) with 1%N. exact R. }
  eapply total_imp; [exact K|]. intros a s' E _ _. eapply begin_ok; eauto.
Qed.

Lemma total_assoc : forall A B C (m : WM A) (k : A -> WM B) (h : B -> WM C) s Q, total (wbind (wbind m k) h) s Q -> total (wbind m (fun a => wbind (k a) h)) s Q.
Proof. intros A B C m k h s Q (a & s' & E & H). exists a, s'. rewrite wbind_assoc. auto. Qed.

Lemma total_init_special : forall ty s pre old n t, wgood (w_sink s) -> at_ pre old (w_sink s) -> w_open s = n :: t -> (nh_attrs (on_header n) + 1 < pow2_64)%N ->
  (lenN pre + 5 < pow2_63)%N -> total (initialize_special ty) s (fun _ _ => True).
Proof.
  intros ty s pre old n t G A O L R. unfold initialize_special. apply total_assoc. eapply total_bind; [eapply total_begin; eauto; lia|].
  intros _ s1 _ G1 (_ & A1 & _). eapply total_bind; [apply (total_tell _ _ _ G1 A1)|]. intros hp s2 _ G2 (_ & A2 & _).
  eapply total_bind; [apply (total_write WIo _ _ _ _ G2 A2)|intros _ s3 _ G3 _; apply total_ret; auto].
  rewrite !lenN_app, le_enc_lenN. change (lenN [spec_code ty]) with 1%N. lia.
Qed.

Lemma total_fin_special : forall hp k s x y old, wgood (w_sink s) -> at_ (x ++ le_enc 4 0 ++ y) old (w_sink s) -> hp = lenN x -> (k < pow2_32)%N ->
  total (finalize_special hp k) s (fun _ _ => True).
Proof.
  intros hp k s x y old G A -> L. unfold finalize_special. replace (k <? pow2_32)%N with true by lia.
  eapply total_bind; [apply (total_tell _ _ _ G A)|]. intros q s1 _ G1 (_ & A1 & ->).
  eapply total_imp; [|trivial]. eapply total_patch; [exact G1|exact A1|reflexivity|reflexivity|rewrite !le_enc_lenN; reflexivity|].
  intros s0 old0 _ G0 A0. apply total_write; auto. destruct A1 as (_ & _ & A1). rewrite !lenN_app, !le_enc_lenN in *. lia.
Qed.

Lemma total_direct : forall ty bs s pre old n t, wgood (w_sink s) -> at_ pre old (w_sink s) -> w_open s = n :: t -> (nh_attrs (on_header n) + 1 < pow2_64)%N ->
  (lenN pre + 5 + lenN bs < pow2_63)%N -> (lenN bs < pow2_32)%N -> total (append_direct ty bs) s (fun _ _ => True).
Proof.
  intros ty bs s pre old n t G A O L R LB. unfold append_direct. eapply total_bind; [eapply total_init_special; eauto; lia|].
  intros hp s1 E1 G1 _. destruct (init_special_ok _ _ _ _ _ _ E1 A) as [(_ & A1 & _) ->].
  eapply total_bind; [apply (total_write WIo bs _ _ _ G1 A1)|].
  { rewrite !lenN_app, le_enc_lenN. change (lenN [spec_code ty]) with 1%N. lia. }
  intros _ s2 _ G2 (_ & A2).
  replace ((pre ++ [spec_code ty] ++ le_enc 4 0) ++ bs) with ((pre ++ [spec_code ty]) ++ le_enc 4 0 ++ bs) in A2 by (rewrite <- !app_assoc; reflexivity).
  eapply total_fin_special; eauto.
Qed.

(** A string or binary attribute that is too long for its 32-bit length. *)
Lemma direct_too_long : forall ty bs s pre old n t, wgood (w_sink s) -> at_ pre old (w_sink s) -> w_open s = n :: t -> (nh_attrs (on_header n) + 1 < pow2_64)%N ->
  (lenN pre + 5 + lenN bs < pow2_63)%N -> (pow2_32 <= lenN bs)%N -> fst (append_direct ty bs s) = Err (AttributeTooLong (lenN bs)).
Proof.
  intros ty bs s pre old n t G A O L R LB. unfold append_direct.
  destruct (total_init_special ty s pre old n t G A O L ltac:(lia)) as (hp & s1 & E1 & G1 & _).
  unfold wbind at 1. rewrite E1. destruct (init_special_ok _ _ _ _ _ _ E1 A) as [(_ & A1 & _) ->].
  assert (RW : (lenN ((pre ++ [spec_code ty] ++ le_enc 4 0) ++ bs) < pow2_63)%N).
  { rewrite !lenN_app, le_enc_lenN. change (lenN [spec_code ty]) with 1%N. lia. }
  destruct (total_write WIo bs _ _ _ G1 A1 RW) as (u & s2 & E2 & _).
  unfold wbind at 1. unfold write. rewrite E2. unfold finalize_special. replace (lenN bs <? pow2_32)%N with false by lia. reflexivity.
Qed.

Lemma total_single : forall v s pre old n t, wgood (w_sink s) -> at_ pre old (w_sink s) -> w_open s = n :: t -> (nh_attrs (on_header n) + 1 < pow2_64)%N ->
  (lenN pre + 1 + lenN (single_bytes v) < pow2_63)%N -> total (append_single v) s (fun _ _ => True).
Proof.
  intros v s pre old n t G A O L R. unfold append_single. apply total_assoc. eapply total_bind; [eapply total_begin; eauto; lia|].
  intros _ s1 _ G1 (_ & A1 & _). eapply total_imp; [apply (total_write WIo _ _ _ _ G1 A1)|trivial].
  rewrite !lenN_app. change (lenN [spec_code (single_type v)]) with 1%N. lia.
Qed.

Lemma total_array_header : forall c e b s pre old, wgood (w_sink s) -> at_ pre old (w_sink s) -> (lenN pre + 12 < pow2_63)%N ->
  total (write_array_header c e b) s (fun _ s' => same s s' /\ at_ (pre ++ arr_head c e b) (dropN (lenN (arr_head c e b)) old) (w_sink s')).
Proof.
  intros c e b s pre old G A R.
  assert (K : total (write_array_header c e b) s (fun _ _ => True)).
  { unfold write_array_header. eapply total_bind; [apply (total_write WIo _ _ _ _ G A); rewrite ?lenN_app, ?le_enc_lenN; lia|]. intros _ s1 _ G1 (S1 & A1).
    eapply total_bind; [apply (total_write WIo _ _ _ _ G1 A1); rewrite ?lenN_app, ?le_enc_lenN; lia|]. intros _ s2 _ G2 (S2 & A2).
    eapply total_imp; [apply (total_write WIo _ _ _ _ G2 A2); rewrite ?lenN_app, ?le_enc_lenN; lia|trivial]. }
  eapply total_imp; [exact K|]. intros a s' E _ _. eapply arr_header_ok; eauto.
Qed.

Lemma total_init_array : forall ty e s pre old n t, wgood (w_sink s) -> at_ pre old (w_sink s) -> w_open s = n :: t -> (nh_attrs (on_header n) + 1 < pow2_64)%N ->
  (lenN pre + 13 < pow2_63)%N -> total (initialize_array ty e) s (fun _ _ => True).
Proof.
  intros ty e s pre old n t G A O L R. unfold initialize_array. apply total_assoc. eapply total_bind; [eapply total_begin; eauto; lia|].
  intros _ s1 _ G1 (_ & A1 & _). eapply total_bind; [apply (total_tell _ _ _ G1 A1)|]. intros hp s2 _ G2 (_ & A2 & _).
  eapply total_bind; [apply (total_array_header _ _ _ _ _ _ G2 A2)|intros _ s3 _ G3 _; apply total_ret; auto].
  rewrite !lenN_app. change (lenN [spec_code ty]) with 1%N. lia.
Qed.

Lemma total_each : forall wrap l s pre old, wgood (w_sink s) -> at_ pre old (w_sink s) -> (lenN pre + lenN (concat l) < pow2_63)%N ->
  total (write_each_as wrap l) s (fun _ _ => True).
Proof.
  intros wrap. induction l as [|b l IH]; intros s pre old G A R; [apply total_ret; auto|]. cbn [write_each_as concat] in *. rewrite lenN_app in R.
  eapply total_bind; [apply (total_write wrap _ _ _ _ G A); rewrite lenN_app; lia|]. intros _ s1 _ G1 (_ & A1). eapply IH; eauto. rewrite lenN_app. lia.
Qed.

Lemma total_payload : forall e l s pre old, wgood (w_sink s) -> at_ pre old (w_sink s) ->
  let p := array_payload (match e with EncZlib => true | EncDirect => false end) l in
  (lenN pre + lenN p < pow2_63)%N -> (lenN l < pow2_32)%N ->
  total (match e with EncDirect => write_elements l false | EncZlib => write_zlib l false end) s (fun _ _ => True).
Proof.
  intros e l s pre old G A p R L. destruct e.
  - unfold write_elements. eapply total_bind; [eapply total_each; eauto|]. intros _ s1 _ G1 _. unfold count_elements. replace (lenN l <? pow2_32)%N with true by lia. apply total_ret; auto.
  - unfold write_zlib. cbn [array_payload] in p. unfold p, z_enc in R. rewrite lenN_app in R.
    destruct (total_each WIo (z_feed l) s _ _ G A ltac:(lia)) as (u & s1 & E1 & G1 & _). unfold total, wbind at 1. unfold write_each at 1. rewrite E1.
    destruct (write_each_ok _ _ _ _ _ _ _ E1 A) as [_ A1]. change (total (wbind (count_elements (lenN l)) (fun c => wbind (write_each_as Compression (z_fin l)) (fun _ => wret c))) s1 (fun _ _ => True)).
    eapply total_bind; [unfold count_elements; replace (lenN l <? pow2_32)%N with true by lia; apply total_ret with (Q := fun _ s' => s' = s1); auto|].
    intros c s2 _ _ ->. eapply total_bind; [apply (total_each Compression _ _ _ _ G1 A1)|intros; apply total_ret; auto].
    rewrite lenN_app. lia.
Qed.

(** An array up to the point where its length is looked at. *)
Lemma total_array_body : forall enc v s pre old n t, wgood (w_sink s) -> at_ pre old (w_sink s) -> w_open s = n :: t -> (nh_attrs (on_header n) + 1 < pow2_64)%N ->
  let e := match enc with Some e => e | None => EncDirect end in
  let p := array_payload (is_zip enc) (elems_bytes v) in
  (lenN pre + 13 + lenN p < pow2_63)%N -> (lenN (elems_bytes v) < pow2_32)%N ->
  exists s', wgood (w_sink s') /\ (exists old', at_ ((pre ++ [spec_code (elems_type v)]) ++ arr_head 0 e 0 ++ p) old' (w_sink s')) /\
    append_array enc v false s =
    (if (lenN p <? pow2_32)%N then finalize_array (lenN (pre ++ [spec_code (elems_type v)])) (lenN (elems_bytes v)) e (lenN p) else wthrow (AttributeTooLong (lenN p))) s'.
Proof.
  intros enc v s pre old n t G A O L e p R LC. unfold append_array. fold e.
  assert (EZ : is_zip enc = match e with EncZlib => true | EncDirect => false end) by (unfold e; destruct enc as [[]|]; reflexivity).
  destruct (total_init_array (elems_type v) e s pre old n t G A O L ltac:(lia)) as (hp & s1 & E1 & G1 & _).
  unfold wbind at 1. rewrite E1. destruct (init_array_ok _ _ _ _ _ _ _ E1 A) as [(_ & A1 & _) ->].
  destruct (total_tell _ _ _ G1 A1) as (q & s2 & E2 & G2 & _ & A2 & ->). unfold wbind at 1. rewrite E2.
  assert (RP : (lenN (pre ++ [spec_code (elems_type v)] ++ arr_head 0 e 0) + lenN (array_payload (match e with EncZlib => true | EncDirect => false end) (elems_bytes v)) < pow2_63)%N).
  { rewrite <- EZ. fold p. rewrite !lenN_app, arr_head_len. change (lenN [spec_code (elems_type v)]) with 1%N. lia. }
  destruct (total_payload e (elems_bytes v) s2 _ _ G2 A2 RP LC) as (c & s3 & E3 & G3 & _).
  unfold wbind at 1. rewrite E3. destruct (payload_ok _ _ _ _ _ _ _ _ E3 A2) as (_ & -> & _ & _ & A3). rewrite <- EZ in A3. fold p in A3.
  destruct (total_tell _ _ _ G3 A3) as (q & s4 & E4 & G4 & _ & A4 & ->). unfold wbind at 1. rewrite E4.
  exists s4. split; [exact G4|]. split; [eexists; rewrite <- !app_assoc in *; exact A4|].
  unfold sub_u64, wbind, wret.
  match goal with |- context [(?a <=? ?b)%N] => replace (a <=? b)%N with true by (rewrite !lenN_app; lia) end.
  match goal with |- context [(?a - ?b)%N] => replace (a - b)%N with (lenN p) by (rewrite !lenN_app; lia) end. reflexivity.
Qed.

Lemma total_array : forall enc v s pre old n t, wgood (w_sink s) -> at_ pre old (w_sink s) -> w_open s = n :: t -> (nh_attrs (on_header n) + 1 < pow2_64)%N ->
  let p := array_payload (is_zip enc) (elems_bytes v) in
  (lenN pre + 13 + lenN p < pow2_63)%N -> (lenN (elems_bytes v) < pow2_32)%N -> (lenN p < pow2_32)%N ->
  total (append_array enc v false) s (fun _ _ => True).
Proof.
  intros enc v s pre old n t G A O L p R LC LP. destruct (total_array_body enc v s pre old n t G A O L R LC) as (s1 & G1 & (o & A1) & E).
  fold p in E, A1. replace (lenN p <? pow2_32)%N with true in E by lia. set (e := match enc with Some e => e | None => EncDirect end) in *.
  assert (K : total (finalize_array (lenN (pre ++ [spec_code (elems_type v)])) (lenN (elems_bytes v)) e (lenN p)) s1 (fun _ _ => True)).
  { unfold finalize_array. eapply total_bind; [apply (total_tell _ _ _ G1 A1)|]. intros q s2 _ G2 (_ & A2 & ->).
    eapply total_imp; [|trivial]. eapply total_patch; [exact G2|exact A2|reflexivity|reflexivity|rewrite !arr_head_len; reflexivity|].
    intros s0 old0 _ G0 A0. eapply total_array_header; eauto. destruct A2 as (_ & _ & A2). rewrite !lenN_app, ?arr_head_len in *. lia. }
  destruct K as (u & s2 & E2 & H). exists u, s2. rewrite E. auto.
Qed.

Lemma array_too_long : forall enc v s pre old n t, wgood (w_sink s) -> at_ pre old (w_sink s) -> w_open s = n :: t -> (nh_attrs (on_header n) + 1 < pow2_64)%N ->
  let p := array_payload (is_zip enc) (elems_bytes v) in
  (lenN pre + 13 + lenN p < pow2_63)%N -> (lenN (elems_bytes v) < pow2_32)%N -> (pow2_32 <= lenN p)%N ->
  fst (append_array enc v false s) = Err (AttributeTooLong (lenN p)).
Proof.
  intros enc v s pre old n t G A O L p R LC LP. destruct (total_array_body enc v s pre old n t G A O L R LC) as (s1 & G1 & _ & E).
  fold p in E. replace (lenN p <? pow2_32)%N with false in E by lia. rewrite E. reflexivity.
Qed.

(** The call that appends an attribute. *)
Definition call_of (a : attr) : acall :=
  let enc := if at_zip a then Some EncZlib else None in
  match at_val a with
  | VBool b => ASingle (SBool b) | VI16 z => ASingle (SI16 z) | VI32 z => ASingle (SI32 z) | VI64 z => ASingle (SI64 z)
  | VF32 x => ASingle (SF32 x) | VF64 x => ASingle (SF64 x)
  | VArrBool l => AArray enc (LBool l) false | VArrI32 l => AArray enc (LI32 l) false | VArrI64 l => AArray enc (LI64 l) false
  | VArrF32 l => AArray enc (LF32 l) false | VArrF64 l => AArray enc (LF64 l) false
  | VString bs => ADirect true bs | VBinary bs => ADirect false bs
  end.

(** The encoding of an attribute that is not an array is not a choice. *)
Definition zip_ok (a : attr) : Prop := match array_raw (at_val a) with Some _ => True | None => at_zip a = false end.

Lemma call_of_attr : forall a, zip_ok a -> attr_of (call_of a) = Some a.
Proof. intros [v z] H. unfold zip_ok, call_of in *. cbn [at_val at_zip] in *. destruct v; cbn [array_raw] in H; cbn [attr_of single_val elems_val]; try (rewrite H; reflexivity); destruct z; reflexivity. Qed.

Lemma call_of_typed : forall a, attr_ok a -> acall_typed (call_of a) /\ faithful (call_of a).
Proof. intros [v z] [H _]. unfold call_of. cbn [at_val at_zip] in *. destruct v; split; try exact I; exact H. Qed.

Lemma total_call : forall a s pre old n t, wgood (w_sink s) -> at_ pre old (w_sink s) -> w_open s = n :: t -> (nh_attrs (on_header n) + 1 < pow2_64)%N ->
  attr_ok a -> (lenN pre + lenN (enc_attr a) < pow2_63)%N -> total (run_acall (call_of a)) s (fun _ _ => True).
Proof.
  intros [v z] s pre old n t G A O L [HV HF] R. unfold attr_fits, u_ok in HF. change (2 ^ (8 * N.of_nat 4))%N with pow2_32 in HF. cbn [at_val at_zip] in HF, HV.
  assert (ARR : forall w, elems_val w = v -> (u_ok 4 (lenN (elems_bytes w)) /\ u_ok 4 (lenN (array_payload z (elems_bytes w)))) ->
    total (append_array (if z then Some EncZlib else None) w false) s (fun _ _ => True)).
  { intros w EW [U1 U2]. unfold u_ok in *. change (2 ^ (8 * N.of_nat 4))%N with pow2_32 in *.
    assert (EZ : is_zip (if z then Some EncZlib else None) = z) by (destruct z; reflexivity).
    rewrite <- EW, enc_attr_elems in R. rewrite !lenN_app, !le_enc_lenN in R. change (lenN [spec_code (elems_type w)]) with 1%N in R.
    eapply total_array; eauto; rewrite EZ; [|exact U2]. cbn [N.of_nat Pos.of_succ_nat Pos.succ] in R. lia. }
  destruct v; cbv beta iota in HF; unfold call_of; cbn [at_val at_zip run_acall];
    try (eapply total_single; eauto; unfold enc_attr in R; cbn [at_val aval_type single_type] in R; rewrite lenN_cons in R; cbn [single_bytes]; rewrite ?lenN_cons in *; lia);
    try (eapply total_direct; eauto; unfold enc_attr in R; cbn [at_val] in R; rewrite lenN_cons, lenN_app, le_enc_lenN in R; cbn [N.of_nat Pos.of_succ_nat Pos.succ] in R; lia);
    (apply ARR; [reflexivity|]; match goal with |- _ /\ u_ok 4 (lenN (array_payload _ (elems_bytes ?w))) => pose proof (elems_raw w) as ER; cbn [elems_val] in ER; rewrite ER in HF end; exact HF).
Qed.

(** *** Nodes *)
Lemma total_finalize_attributes : forall ver old d s, wgood (w_sink s) -> wrel ver old d s -> total finalize_attributes s (fun _ s' => wrel ver old d s' /\ top_done s').
Proof.
  intros ver old d s G R.
  assert (K : total finalize_attributes s (fun _ _ => True)).
  { unfold finalize_attributes. eapply total_bind; [apply total_ret with (Q := fun l s' => l = w_open s /\ s' = s); auto|]. intros l s0 _ _ [-> ->].
    destruct (w_open s) as [|n t] eqn:EO; [apply total_ret; auto|]. destruct (on_finalized n) eqn:EF; [apply total_ret; auto|].
    destruct R as [RV RA RS RN RF RZ]. rewrite EO in RS. destruct (od_frames d) as [|f l] eqn:ED; [contradiction|]. destruct RS as [(P1 & P2 & P3 & P4 & P5 & P6 & P7) RS].
    eapply total_bind; [apply (total_tell _ _ _ G RA)|]. intros q s1 _ G1 (_ & A1 & ->).
    eapply total_bind; [|intros; eexists _, _; split; [reflexivity|]; split; [eassumption|exact I]].
    unfold sub_u64. replace (on_body_pos n <=? lenN (enc_open ver d))%N with true; [apply total_ret with (Q := fun _ _ => True); auto|].
    rewrite P2. unfold enc_open. rewrite ED. cbn [enc_frames]. rewrite lenN_app, enc_frame_len. lia. }
  eapply total_imp; [exact K|]. intros a s' E _ _. eapply finalize_ok; eauto.
Qed.

Lemma has_child_same : forall s, w_sink (set_has_child s) = w_sink s /\ w_ver (set_has_child s) = w_ver s.
Proof. intros s. unfold set_has_child. destruct (w_open s); auto. Qed.

Lemma total_new_node : forall ver old d name s, wgood (w_sink s) -> wrel ver old d s -> utf8_valid name = true -> (lenN name < 256)%N ->
  (lenN (enc_open ver d) + header_size ver + lenN name < pow2_63)%N -> total (new_node name) s (fun _ s' => wrel ver old (open_node name d) s').
Proof.
  intros ver old d name s G R U LN RM.
  assert (K : total (new_node name) s (fun _ _ => True)).
  { unfold new_node. eapply total_bind; [apply (total_finalize_attributes _ _ _ _ G R)|]. intros u s1 _ G1 [[RV RA _ _ _ _] _]. clear u.
    destruct (has_child_same s1) as [W1 W2].
    eapply total_bind with (P := fun _ s' => s' = set_has_child s1).
    { exists tt, (set_has_child s1). rewrite W1. auto. }
    intros u s2 _ G2 ->. clear u. replace (lenN name <? 256)%N with true by lia. cbn [negb]. rewrite <- W1 in RA.
    eapply total_bind; [apply (total_tell _ _ _ G2 RA)|]. intros hp s3 _ G3 ((V3 & _) & A3 & _).
    assert (EV : w_ver s3 = ver) by congruence.
    eapply total_bind; [apply (total_header _ _ _ _ G3 A3)|].
    - intros _. unfold u_ok. cbn. lia.
    - rewrite lenN_app, hdr_len, EV. lia.
    - intros u s4 _ G4 (_ & A4). clear u. rewrite EV in A4.
      eapply total_bind; [apply (total_write WIo _ _ _ _ G4 A4); rewrite !lenN_app, hdr_len; lia|]. intros u s5 _ G5 (_ & A5). clear u.
      eapply total_bind; [apply (total_tell _ _ _ G5 A5)|]. intros bp s6 _ G6 _. eexists _, _. split; [reflexivity|]. split; [exact G6|exact I]. }
  eapply total_imp; [exact K|]. intros a s' E _ _. eapply new_node_ok; eauto.
Qed.

Lemma enc_attrs_nil : forall l, ((lenN l =? 0) = (lenN (enc_attrs l) =? 0))%N.
Proof.
  intros [|a l]; [reflexivity|]. unfold enc_attrs. cbn [flat_map]. unfold enc_attr at 1. rewrite lenN_cons, lenN_app, lenN_cons.
  match goal with |- ((?a =? 0) = (?b =? 0))%N => transitivity false; [|symmetry] end; lia.
Qed.

(** Closing a node, up to the header. *)
Lemma close_body : forall ver old d f t s, wgood (w_sink s) -> wrel ver old d s -> od_frames d = f :: t ->
  let e := (lenN (enc_open ver d) + (if needs_marker (of_atts f) (of_kids f) then header_size ver else 0))%N in
  (e < pow2_63)%N ->
  exists s3 old3 y, w_ver s3 = ver /\ wgood (w_sink s3) /\ at_ (enc_frames ver (od_nodes d) t ++ placeholder ver (of_name f) ++ y) old3 (w_sink s3) /\
    lenN (enc_frames ver (od_nodes d) t ++ placeholder ver (of_name f) ++ y) = e /\
    close_node s = (seek (lenN (enc_frames ver (od_nodes d) t)) ;> write_node_header (mkNH e (lenN (of_atts f)) (lenN (enc_attrs (of_atts f))) (Nb (lenN (of_name f)))) ;> seek e) s3.
Proof.
  intros ver old d f t s G R ED e LE. unfold close_node.
  destruct (total_finalize_attributes _ _ _ _ G R) as (u & s1 & E1 & G1 & [RV RA RS RN RF RZ] & T1).
  unfold wbind at 1. rewrite E1. unfold wbind at 1. cbn [wgets].
  rewrite ED in RS. destruct (w_open s1) as [|n m] eqn:EO; [contradiction|]. unfold top_done in T1. rewrite EO in T1.
  destruct RS as [(P1 & P2 & P3 & P4 & P5 & P6 & P7) RS]. rewrite T1 in P6.
  unfold wbind at 1. cbn [wmodify]. set (s2 := set_open m s1) in *. change (w_sink s1) with (w_sink s2) in RA, G1.
  set (b := enc_frames ver (od_nodes d) t) in *.
  set (y := of_name f ++ enc_attrs (of_atts f) ++ enc_nodes ver (lenN b + header_size ver + lenN (of_name f) + lenN (enc_attrs (of_atts f))) (of_kids f)).
  assert (EB : enc_open ver d = b ++ placeholder ver (of_name f) ++ y).
  { unfold enc_open. rewrite ED. cbn [enc_frames]. fold b. unfold enc_frame. reflexivity. }
  rewrite P7, P4, P6, P5, P1, needs_marker_spec. set (mk := marker ver (of_atts f) (of_kids f)).
  assert (EM : lenN mk = if needs_marker (of_atts f) (of_kids f) then header_size ver else 0%N) by (unfold mk; apply marker_len).
  assert (T : total (wwhen (needs_marker (of_atts f) (of_kids f)) (write_node_header node_end)) s2 (fun _ s' => same s2 s' /\ exists o, at_ (enc_open ver d ++ mk) o (w_sink s'))).
  { unfold mk, marker. destruct (needs_marker (of_atts f) (of_kids f)); cbn [wwhen].
    - eapply total_imp; [apply (total_header node_end _ _ _ G1 RA)|].
      + intros _. unfold u_ok. cbn. lia.
      + rewrite lenN_app, hdr_len. change (w_ver s2) with (w_ver s1). rewrite RV. exact LE.
      + intros v s' _ _ (S & A). change (w_ver s2) with (w_ver s1) in A. rewrite RV, node_end_bytes in A. eauto.
    - apply total_ret; [exact G1|]. rewrite app_nil_r. split; [apply same_refl|eauto]. }
  destruct T as (u2 & s3 & E3 & G3 & (V3 & O3) & (o & A3)). unfold wbind at 1. rewrite E3.
  destruct (total_tell _ _ _ G3 A3) as (q & s4 & E4 & G4 & (V4 & O4) & A4 & ->). unfold wbind at 1. rewrite E4.
  assert (EE : lenN (enc_open ver d ++ mk) = e) by (rewrite lenN_app, EM; reflexivity).
  rewrite EE, enc_attrs_nil, Bool.eqb_reflx.
  exists s4, o, (y ++ mk). split; [change (w_ver s1) with (w_ver s2) in RV; congruence|]. split; [exact G4|].
  assert (EQ : b ++ placeholder ver (of_name f) ++ y ++ mk = enc_open ver d ++ mk) by (rewrite EB, <- !app_assoc; reflexivity).
  rewrite EQ. split; [exact A4|]. split; [exact EE|reflexivity].
Qed.

Lemma total_close : forall ver old d f t s, wgood (w_sink s) -> wrel ver old d s -> od_frames d = f :: t ->
  let e := (lenN (enc_open ver d) + (if needs_marker (of_atts f) (of_kids f) then header_size ver else 0))%N in
  (e < pow2_63)%N -> u_ok (width ver) e -> u_ok (width ver) (lenN (of_atts f)) -> u_ok (width ver) (lenN (enc_attrs (of_atts f))) ->
  total close_node s (fun _ s' => wrel ver old (close_open d) s').
Proof.
  intros ver old d f t s G R ED e LE U1 U2 U3.
  destruct (close_body ver old d f t s G R ED LE) as (s3 & o & y & V3 & G3 & A3 & EE & EC). fold e in EE, EC.
  set (b := enc_frames ver (od_nodes d) t) in *.
  set (h := mkNH e (lenN (of_atts f)) (lenN (enc_attrs (of_atts f))) (Nb (lenN (of_name f)))) in *.
  assert (K : total (seek (lenN b) ;> write_node_header h ;> seek e) s3 (fun _ _ => True)).
  { eapply total_imp; [|trivial]. eapply total_patch with (h' := hdr_bytes ver h); [exact G3|exact A3|reflexivity|symmetry; exact EE|rewrite hdr_len, placeholder_len; reflexivity|].
    intros s0 o0 V0 G0 A0. rewrite V3 in V0. rewrite <- V0. apply total_header; auto.
    - rewrite V0. intros LV. unfold width in *. replace (ver <? 7500)%N with true in * by lia. auto.
    - rewrite V0. rewrite !lenN_app in *. rewrite placeholder_len in EE. rewrite hdr_len. lia. }
  destruct K as (u & s' & E & G' & _). rewrite <- EC in E. destruct u. exists tt, s'. split; [exact E|]. split; [exact G'|]. eapply close_node_ok; eauto.
Qed.

(** A node whose end does not fit a 32-bit offset. *)
Lemma close_too_large : forall ver old d f t s, wgood (w_sink s) -> wrel ver old d s -> od_frames d = f :: t ->
  let e := (lenN (enc_open ver d) + (if needs_marker (of_atts f) (of_kids f) then header_size ver else 0))%N in
  (e < pow2_63)%N -> (ver < 7500)%N -> (pow2_32 <= e)%N -> fst (close_node s) = Err (FileTooLarge e).
Proof.
  intros ver old d f t s G R ED e LE LV U.
  destruct (close_body ver old d f t s G R ED LE) as (s3 & o & y & V3 & G3 & A3 & EE & EC). fold e in EE, EC. rewrite EC.
  destruct (total_seek (lenN (enc_frames ver (od_nodes d) t)) s3 G3) as (u & s4 & E4 & G4 & (V4 & _) & _).
  unfold wbind at 1. rewrite E4. unfold write_node_header, wbind, wgets. rewrite V4, V3. replace (ver <? 7500)%N with true by lia.
  cbn [nh_end]. unfold write_u32 at 1. replace (e <? pow2_32)%N with false by lia. reflexivity.
Qed.

(** *** Forests *)
Definition runs (l : list wcall) (s s' : wstate) : Prop := exists rs, run_wcalls l s = (rs, s') /\ Forall (fun r => r = Ok tt) rs.

Lemma ok_no_panic : forall rs, Forall (fun r : res werr unit => r = Ok tt) rs -> existsb is_panic rs = false.
Proof. induction 1 as [|r rs -> _ IH]; [reflexivity|exact IH]. Qed.

Lemma runs_nil : forall s, runs [] s s.
Proof. intros s. exists []. split; [reflexivity|constructor]. Qed.
Lemma runs_cons : forall c l s s1 s2 rs, run_wcall c s = (rs, s1) -> Forall (fun r => r = Ok tt) rs -> runs l s1 s2 -> runs (c :: l) s s2.
Proof.
  intros c l s s1 s2 rs E F (rs' & E' & F'). exists (rs ++ rs'). split; [|apply Forall_app; auto]. cbn [run_wcalls]. rewrite E, (ok_no_panic _ F), E'. reflexivity.
Qed.
Lemma runs_app : forall l l' s s1 s2, runs l s s1 -> runs l' s1 s2 -> runs (l ++ l') s s2.
Proof.
  induction l as [|c l IH]; intros l' s s1 s2 (rs & E & F) H.
  - injection E as <- <-. exact H.
  - cbn [run_wcalls] in E. destruct (run_wcall c s) as [r0 s0] eqn:E0. destruct (existsb is_panic r0) eqn:EP.
    + injection E as <- <-. rewrite (ok_no_panic _ F) in EP. discriminate.
    + destruct (run_wcalls l s0) as [r1 s3] eqn:E1. injection E as <- <-. apply Forall_app in F. destruct F as [F0 F1].
      cbn [app]. eapply runs_cons; eauto. eapply IH; [exists r1; eauto|exact H].
Qed.

Lemma total_calls : forall ver old l d s, wgood (w_sink s) -> wrel ver old d s ->
  (match od_frames d with [] => False | f :: _ => of_kids f = [] end) -> (match w_open s with [] => False | n :: _ => on_finalized n = false end) ->
  (match od_frames d with [] => True | f :: _ => lenN (of_atts f) + lenN l < pow2_64 end)%N ->
  Forall attr_ok l -> Forall zip_ok l -> (lenN (enc_open ver d) + lenN (enc_attrs l) < pow2_63)%N ->
  exists rs s', run_acalls (map call_of l) s = (rs, s') /\ Forall (fun r => r = Ok tt) rs /\ wgood (w_sink s') /\ wrel ver old (add_attrs (map call_of l) d) s'.
Proof.
  intros ver old l d s G R HK HO HL HA HZ RM.
  assert (X : exists rs s', run_acalls (map call_of l) s = (rs, s') /\ Forall (fun r => r = Ok tt) rs /\ wgood (w_sink s')).
  { assert (Y : exists pre o n t, pre = enc_open ver d /\ at_ pre o (w_sink s) /\ w_open s = n :: t /\ (nh_attrs (on_header n) + lenN l < pow2_64)%N).
    { destruct R as [RV RA RS RN RF RZ]. destruct (od_frames d) as [|f fs]; [contradiction|]. destruct (w_open s) as [|n t]; [contradiction|]. destruct RS as [(P1 & P2 & P3 & P4 & _) _].
      exists (enc_open ver d), (dropN (lenN (enc_open ver d)) old), n, t. rewrite P4. auto. }
    destruct Y as (pre & o & n & t & EP & A & O & L). rewrite <- EP in RM. clear - G HA HZ RM A O L. revert s pre o n G RM A O L HA HZ.
    induction l as [|a l IH]; intros s pre o n G RM A O L HA HZ; [exists [], s; split; [reflexivity|]; split; [constructor|exact G]|].
    apply Forall_cons_iff in HA; destruct HA as [HA1 HA2]. apply Forall_cons_iff in HZ; destruct HZ as [HZ1 HZ2].
    unfold enc_attrs in RM. cbn [flat_map] in RM. rewrite lenN_app in RM. fold (enc_attrs l) in RM. rewrite lenN_cons in L.
    destruct (total_call a s pre o n t G A O) as (u & s1 & E1 & G1 & _); [lia|exact HA1|lia|].
    destruct (call_of_typed _ HA1) as [T1 F1]. destruct (acall_ok _ _ _ _ _ _ T1 F1 E1 A) as (a' & EA & (V1 & A1 & n1 & t1 & O1 & O2 & L1) & _).
    rewrite (call_of_attr _ HZ1) in EA. injection EA as <-. rewrite O in O1. injection O1 as <- <-.
    destruct (IH s1 (pre ++ enc_attr a) (dropN (lenN (enc_attr a)) o) (bump n) G1) as (rs & s' & E & F & G'); auto.
    + rewrite lenN_app. lia.
    + unfold bump. cbn [on_header nh_attrs]. lia.
    + exists (Ok u :: rs), s'. cbn [map run_acalls]. rewrite E1, E. destruct u. split; [reflexivity|]. split; [constructor; auto|exact G']. }
  destruct X as (rs & s' & E & F & G'). exists rs, s'. split; [exact E|]. split; [exact F|]. split; [exact G'|].
  assert (TF : Forall acall_typed (map call_of l) /\ Forall faithful (map call_of l)).
  { clear - HA. induction HA as [|a l H _ [IH1 IH2]]; [split; constructor|]. destruct (call_of_typed _ H). cbn [map]. split; constructor; auto. }
  destruct TF. eapply (acalls_ok ver old (map call_of l) d s rs s'); eauto.
Qed.

(** The calls that write a node. *)
Fixpoint calls_of (n : node) : list wcall :=
  match n with Node name ats kids => CNode name (map call_of ats) :: flat_map calls_of kids ++ [CClose] end.
Definition calls_of_all (ns : list node) : list wcall := flat_map calls_of ns.

Fixpoint zips_ok (n : node) : Prop :=
  match n with Node _ ats kids => Forall zip_ok ats /\ (fix go l := match l with [] => True | k :: l' => zips_ok k /\ go l' end) kids end.
Lemma zips_ok_eq : forall name ats kids, zips_ok (Node name ats kids) <-> Forall zip_ok ats /\ Forall zips_ok kids.
Proof.
  intros name ats kids. cbn [zips_ok]. apply and_iff_compat_l. induction kids as [|k kids IH]; [split; auto|]. rewrite Forall_cons_iff, IH. reflexivity.
Qed.

Lemma add_attrs_calls : forall l d, Forall zip_ok l -> match od_frames d with [] => False | _ :: _ => True end ->
  add_attrs (map call_of l) d = match od_frames d with [] => d | f :: t => mkOD (od_nodes d) (mkOF (of_name f) (of_atts f ++ l) (of_kids f) :: t) end.
Proof.
  induction l as [|a l IH]; intros d H K.
  - destruct d as [ns [|[fn fa fk] t]]; [contradiction|]. cbn [map add_attrs od_frames od_nodes of_name of_atts of_kids]. rewrite app_nil_r. reflexivity.
  - apply Forall_cons_iff in H. destruct H as [H1 H2]. cbn [map add_attrs]. rewrite (call_of_attr _ H1). destruct d as [ns [|[fn fa fk] t]]; [contradiction|].
    unfold add_attr. cbn [od_frames od_nodes of_name of_atts of_kids]. rewrite IH by auto. cbn [od_frames od_nodes of_name of_atts of_kids]. rewrite <- app_assoc. reflexivity.
Qed.

Lemma doc_calls_app : forall l l' d, doc_calls (l ++ l') d = doc_calls l' (doc_calls l d).
Proof. intros. unfold doc_calls. apply fold_left_app. Qed.

Lemma doc_calls_of : forall n d, zips_ok n -> doc_calls (calls_of n) d = add_node n d.
Proof.
  induction n as [name ats kids HK] using node_ind2. intros d Z. apply zips_ok_eq in Z. destruct Z as [Z1 Z2].
  assert (ALL : forall d, doc_calls (calls_of_all kids) d = fold_left (fun d n => add_node n d) kids d).
  { clear Z1. induction HK as [|k kids H1 _ IH]; intros d0; [reflexivity|]. apply Forall_cons_iff in Z2. destruct Z2 as [Z2 Z3].
    unfold calls_of_all. cbn [flat_map fold_left]. rewrite doc_calls_app, (H1 _ Z2). apply IH; auto. }
  cbn [calls_of]. fold (calls_of_all kids). unfold doc_calls at 1. cbn [fold_left]. fold (doc_calls (calls_of_all kids ++ [CClose]) (doc_call (CNode name (map call_of ats)) d)).
  rewrite doc_calls_app, ALL.
  cbn [doc_call]. rewrite add_attrs_calls by (auto; exact I). cbn [open_node od_frames od_nodes of_name of_atts of_kids app].
  assert (FOLD : forall ks ks0 t, fold_left (fun d n => add_node n d) ks (mkOD (od_nodes d) (mkOF name ats ks0 :: t)) = mkOD (od_nodes d) (mkOF name ats (ks0 ++ ks) :: t)).
  { clear. induction ks as [|k ks IH]; intros ks0 t; [rewrite app_nil_r; reflexivity|]. cbn [fold_left]. unfold add_node at 2. cbn [od_frames od_nodes of_name of_atts of_kids]. rewrite IH, <- app_assoc. reflexivity. }
  rewrite FOLD. cbn [app]. unfold doc_calls. cbn [fold_left doc_call close_open od_frames od_nodes]. destruct d as [dn df]. reflexivity.
Qed.

Lemma doc_calls_of_all : forall ns d, Forall zips_ok ns -> doc_calls (calls_of_all ns) d = fold_left (fun d n => add_node n d) ns d.
Proof.
  induction ns as [|n ns IH]; intros d Z; [reflexivity|]. apply Forall_cons_iff in Z. destruct Z as [Z1 Z2].
  unfold calls_of_all. cbn [flat_map fold_left]. rewrite doc_calls_app, (doc_calls_of _ _ Z1). apply IH. exact Z2.
Qed.

Lemma add_node_len : forall ver n d, lenN (enc_open ver (add_node n d)) = (lenN (enc_open ver d) + node_size ver n)%N.
Proof.
  intros ver n [ns [|f t]]; unfold enc_open, add_node; cbn [od_nodes od_frames].
  - rewrite !enc_base_len, nodes_size_snoc. lia.
  - cbn [enc_frames]. rewrite !lenN_app, !enc_frame_len. cbn [of_name of_atts of_kids]. rewrite nodes_size_snoc. lia.
Qed.

Lemma u_ok_le : forall k a b, (a <= b)%N -> u_ok k b -> u_ok k a.
Proof. unfold u_ok. intros. lia. Qed.

(** On a sink that does not fail and has room, every node that the format can hold can be
    written. *)
Lemma total_node : forall ver old n d s, wgood (w_sink s) -> wrel ver old d s -> node_ok n -> counts_ok ver n -> zips_ok n ->
  (lenN (enc_open ver d) + node_size ver n < pow2_63)%N -> u_ok (width ver) (lenN (enc_open ver d) + node_size ver n) ->
  exists s', runs (calls_of n) s s' /\ wgood (w_sink s') /\ wrel ver old (add_node n d) s'.
Proof.
  intros ver old n. induction n as [name ats kids HK] using node_ind2. intros d s G R NO CO ZO RM U.
  apply node_ok_eq in NO. destruct NO as (N1 & N2 & N3 & N4). apply counts_ok_eq in CO. destruct CO as (C1 & C2 & C3). pose proof ZO as ZO'. apply zips_ok_eq in ZO. destruct ZO as [Z1 Z2].
  pose proof RM as RM0. pose proof U as U0. rewrite node_size_eq in RM, U.
  destruct (total_new_node ver old d name s G R N1 N2) as ([] & s1 & E1 & G1 & R1); [lia|].
  assert (LA : (lenN ats < pow2_64)%N) by (clear - C1; unfold u_ok, width in C1; destruct (ver <? 7500)%N; cbn in C1; unfold pow2_64; lia).
  assert (L1 : lenN (enc_open ver (open_node name d)) = (lenN (enc_open ver d) + header_size ver + lenN name)%N).
  { unfold enc_open, open_node. cbn [od_nodes od_frames enc_frames]. rewrite lenN_app, enc_frame_len. cbn [of_name of_atts of_kids enc_attrs flat_map]. change (lenN []) with 0%N. change (nodes_size ver []) with 0%N. lia. }
  destruct (total_calls ver old ats (open_node name d) s1 G1 R1) as (rs & s2 & E2 & F2 & G2 & R2); auto.
  { reflexivity. }
  { eapply new_node_fresh; eauto. }
  { rewrite L1. lia. }
  rewrite add_attrs_calls in R2 by (auto; exact I). cbn [open_node od_frames od_nodes of_name of_atts of_kids app] in R2.
  set (fr := fun ks => mkOD (od_nodes d) (mkOF name ats ks :: od_frames d)). change (mkOD (od_nodes d) (mkOF name ats [] :: od_frames d)) with (fr []) in R2.
  assert (LF : forall ks, lenN (enc_open ver (fr ks)) = (lenN (enc_open ver d) + header_size ver + lenN name + lenN (enc_attrs ats) + nodes_size ver ks)%N).
  { intros ks. unfold enc_open, fr. cbn [od_nodes od_frames enc_frames]. rewrite lenN_app, enc_frame_len. cbn [of_name of_atts of_kids]. lia. }
  (* the children *)
  assert (KIDS : forall ks ks0 s, Forall (fun n => forall (d : odoc) (s : wstate), wgood (w_sink s) -> wrel ver old d s -> node_ok n -> counts_ok ver n -> zips_ok n ->
      (lenN (enc_open ver d) + node_size ver n < pow2_63)%N -> u_ok (width ver) (lenN (enc_open ver d) + node_size ver n) ->
      exists s', runs (calls_of n) s s' /\ wgood (w_sink s') /\ wrel ver old (add_node n d) s') ks ->
    Forall node_ok ks -> Forall (counts_ok ver) ks -> Forall zips_ok ks -> wgood (w_sink s) -> wrel ver old (fr ks0) s ->
    (lenN (enc_open ver d) + header_size ver + lenN name + lenN (enc_attrs ats) + nodes_size ver (ks0 ++ ks) < pow2_63)%N ->
    u_ok (width ver) (lenN (enc_open ver d) + header_size ver + lenN name + lenN (enc_attrs ats) + nodes_size ver (ks0 ++ ks)) ->
    exists s', runs (calls_of_all ks) s s' /\ wgood (w_sink s') /\ wrel ver old (fr (ks0 ++ ks)) s').
  { clear - LF. induction ks as [|k ks IH]; intros ks0 s HK HN HC HZ G R RM U; [exists s; rewrite app_nil_r; split; [apply runs_nil|auto]|].
    apply Forall_cons_iff in HK; destruct HK as [HK1 HK2]. apply Forall_cons_iff in HN; destruct HN as [HN1 HN2]. apply Forall_cons_iff in HC; destruct HC as [HC1 HC2]. apply Forall_cons_iff in HZ; destruct HZ as [HZ1 HZ2].
    replace (ks0 ++ k :: ks) with ((ks0 ++ [k]) ++ ks) in * by (rewrite <- app_assoc; reflexivity).
    assert (LE : (nodes_size ver ks0 + node_size ver k <= nodes_size ver ((ks0 ++ [k]) ++ ks))%N) by (rewrite nodes_size_app, nodes_size_snoc; lia).
    destruct (HK1 (fr ks0) s G R HN1 HC1 HZ1) as (s1 & R1 & G1 & W1).
    - rewrite LF. lia.
    - rewrite LF. eapply u_ok_le; [|exact U]. lia.
    - change (add_node k (fr ks0)) with (fr (ks0 ++ [k])) in W1. destruct (IH (ks0 ++ [k]) s1 HK2 HN2 HC2 HZ2 G1 W1 RM U) as (s2 & R2 & G2 & W2).
      exists s2. split; [unfold calls_of_all; cbn [flat_map]; eapply runs_app; eauto|auto]. }
  destruct (KIDS kids [] s2 HK N4 C3 Z2 G2 R2) as (s3 & R3 & G3 & W3); cbn [app].
  { lia. }
  { eapply u_ok_le; [|exact U]. lia. }
  clear KIDS. cbn [app] in W3.
  destruct (total_close ver old (fr kids) (mkOF name ats kids) (od_frames d) s3 G3 W3 eq_refl) as ([] & s4 & E4 & G4 & W4); cbn [of_atts of_kids]; rewrite ?LF; auto.
  { clear - RM. unfold marker_size in RM. destruct (needs_marker ats kids); lia. }
  { eapply u_ok_le; [|exact U]. clear. unfold marker_size. destruct (needs_marker ats kids); lia. }
  exists s4. split; [|split; [exact G4|]].
  - cbn [calls_of]. fold (calls_of_all kids). eapply runs_cons with (rs := Ok tt :: rs); [cbn [run_wcall]; rewrite E1, E2; reflexivity|constructor; auto|].
    eapply runs_app; [exact R3|]. eapply runs_cons; [cbn [run_wcall]; rewrite E4; reflexivity|repeat constructor|apply runs_nil].
  - unfold fr in W4. unfold close_open in W4. cbn [od_frames od_nodes] in W4. destruct d as [dn df]. exact W4.
Qed.

Lemma total_nodes : forall ver old ns d s, wgood (w_sink s) -> wrel ver old d s -> Forall node_ok ns -> Forall (counts_ok ver) ns -> Forall zips_ok ns ->
  (lenN (enc_open ver d) + nodes_size ver ns < pow2_63)%N -> u_ok (width ver) (lenN (enc_open ver d) + nodes_size ver ns) ->
  exists s', runs (calls_of_all ns) s s' /\ wgood (w_sink s') /\ wrel ver old (doc_calls (calls_of_all ns) d) s'.
Proof.
  intros ver old ns. induction ns as [|n ns IH]; intros d s G R NO CO ZO RM U; [exists s; split; [apply runs_nil|auto]|].
  apply Forall_cons_iff in NO; destruct NO as [N1 N2]. apply Forall_cons_iff in CO; destruct CO as [C1 C2]. apply Forall_cons_iff in ZO; destruct ZO as [Z1 Z2].
  rewrite nodes_size_cons in RM, U.
  destruct (total_node ver old n d s G R N1 C1 Z1) as (s1 & R1 & G1 & W1); [lia|eapply u_ok_le; [|exact U]; lia|].
  destruct (IH (add_node n d) s1 G1 W1 N2 C2 Z2) as (s2 & R2 & G2 & W2).
  - rewrite add_node_len. lia.
  - rewrite add_node_len. replace (lenN (enc_open ver d) + node_size ver n + nodes_size ver ns)%N with (lenN (enc_open ver d) + (node_size ver n + nodes_size ver ns))%N by lia. exact U.
  - exists s2. unfold calls_of_all. cbn [flat_map]. split; [eapply runs_app; eauto|]. split; [exact G2|]. rewrite doc_calls_app, (doc_calls_of _ _ Z1). exact W2.
Qed.

End WithEnv.
