(** Facts about layouts of documents: sizes, and that a layout can be read in one way only. *)
Require Import Coq.Lists.List Coq.NArith.NArith Coq.ZArith.ZArith Coq.Bool.Bool Coq.micromega.Lia.
Require Import Coq.Init.Byte.
Require Import ZifyBool ZifyNat ZifyN.
Require Import Verif.Base Verif.BaseFacts Verif.Utf8 Verif.Types Verif.Io Verif.IoFacts Verif.Parser Verif.Spec Verif.SpecLayout.
Import ListNotations.
Ltac Zify.zify_post_hook ::= Z.div_mod_to_equations.

Lemma skel_ind' : forall P : skel -> Prop,
  (forall name count claimed region kids marked, Forall P kids -> P (Skel name count claimed region kids marked)) ->
  forall k, P k.
Proof.
  intros P H. fix IH 1. intros [name count claimed region kids marked]. apply H.
  induction kids as [|k kids IHk]; constructor; [apply IH|exact IHk].
Qed.

Lemma skel_size_eq : forall ver name count claimed region kids marked,
  skel_size ver (Skel name count claimed region kids marked) =
  (header_size ver + lenN name + lenN region + skels_size ver kids + (if marked then header_size ver else 0))%N.
Proof.
  intros. reflexivity.
Qed.
Lemma lay_skel_eq : forall ver off name count claimed region kids marked,
  lay_skel ver off (Skel name count claimed region kids marked) =
  lay_header ver (off + skel_size ver (Skel name count claimed region kids marked)) count claimed name ++ region ++
  lay_skels ver (off + header_size ver + lenN name + lenN region) kids ++ (if marked then end_marker ver else []).
Proof.
  intros. cbn [lay_skel]. do 2 f_equal. generalize (off + header_size ver + lenN name + lenN region)%N as o.
  induction kids as [|k l IH]; intros o; [reflexivity|]. cbn [lay_skels]. rewrite <- !app_assoc. f_equal. apply IH.
Qed.
Lemma skel_ok_eq : forall wraps ver off name count claimed region kids marked,
  skel_ok wraps ver off (Skel name count claimed region kids marked) <->
  utf8_valid name = true /\ (lenN name < 256)%N /\
  u_ok (width ver) (off + skel_size ver (Skel name count claimed region kids marked))%N /\ u_ok (width ver) count /\ u_ok (width ver) claimed /\
  region_ok wraps (off + header_size ver + lenN name)%N claimed region /\
  skels_ok wraps ver (off + header_size ver + lenN name + lenN region) kids.
Proof.
  intros. cbn [skel_ok].
  assert (G : forall o, (fix go o l := match l with [] => True | k :: l' => skel_ok wraps ver o k /\ go (o + skel_size ver k)%N l' end) o kids <-> skels_ok wraps ver o kids).
  { induction kids as [|k l IH]; intros o; [reflexivity|]. cbn [skels_ok]. rewrite IH. reflexivity. }
  rewrite G. reflexivity.
Qed.
Lemma skel_events_eq : forall name count claimed region kids marked,
  skel_events (Skel name count claimed region kids marked) = EvStart name :: flat_map skel_events kids ++ [EvEnd].
Proof. reflexivity. Qed.
Lemma skel_warnings_eq : forall name count claimed region kids marked,
  skel_warnings (Skel name count claimed region kids marked) =
  start_warnings name ++ flat_map skel_warnings kids ++ end_warnings count kids marked.
Proof. reflexivity. Qed.

Lemma skels_size_app : forall ver a b, skels_size ver (a ++ b) = (skels_size ver a + skels_size ver b)%N.
Proof. intros ver a b. induction a as [|k a IH]; [reflexivity|]. unfold skels_size in *. cbn [app fold_right]. rewrite IH. lia. Qed.
Lemma skels_size_1 : forall ver k, skels_size ver [k] = skel_size ver k.
Proof. intros. unfold skels_size. cbn [fold_right]. lia. Qed.
Lemma skels_size_cons : forall ver k l, skels_size ver (k :: l) = (skel_size ver k + skels_size ver l)%N.
Proof. reflexivity. Qed.
Lemma lay_skels_app : forall ver a b off, lay_skels ver off (a ++ b) = lay_skels ver off a ++ lay_skels ver (off + skels_size ver a) b.
Proof.
  intros ver a. induction a as [|k a IH]; intros b off; cbn [lay_skels app].
  - unfold skels_size. cbn. rewrite N.add_0_r. reflexivity.
  - rewrite IH, skels_size_cons, N.add_assoc, app_assoc. reflexivity.
Qed.
Lemma skels_ok_app : forall wraps ver a b off, skels_ok wraps ver off (a ++ b) <-> skels_ok wraps ver off a /\ skels_ok wraps ver (off + skels_size ver a) b.
Proof.
  intros wraps ver a. induction a as [|k a IH]; intros b off; cbn [skels_ok app].
  - unfold skels_size. cbn. rewrite N.add_0_r. tauto.
  - rewrite IH, skels_size_cons, N.add_assoc. tauto.
Qed.

Lemma lay_header_len : forall ver e c a name, lenN (lay_header ver e c a name) = (header_size ver + lenN name)%N.
Proof. intros. unfold lay_header, header_size. rewrite !lenN_app, !le_enc_lenN. change (lenN [Nb (lenN name)]) with 1%N. lia. Qed.
Lemma end_marker_len : forall ver, lenN (end_marker ver) = header_size ver.
Proof. intros. unfold end_marker, header_size, lenN, zeros. rewrite repeat_length. lia. Qed.
Lemma header_pos : forall ver, (0 < header_size ver)%N.
Proof. intros. unfold header_size. lia. Qed.
Lemma lay_skel_len : forall ver k off, lenN (lay_skel ver off k) = skel_size ver k.
Proof.
  intros ver k. induction k as [name count claimed region kids marked IH] using skel_ind'; intros off.
  rewrite lay_skel_eq, skel_size_eq, !lenN_app, lay_header_len.
  assert (G : forall o, lenN (lay_skels ver o kids) = skels_size ver kids).
  { induction IH as [|k l Hk Hl IHl]; intros o; [reflexivity|]. cbn [lay_skels]. rewrite lenN_app, Hk, IHl. reflexivity. }
  rewrite G. destruct marked; [rewrite end_marker_len|change (lenN (@nil byte)) with 0%N]; lia.
Qed.
Lemma lay_skels_len : forall ver l off, lenN (lay_skels ver off l) = skels_size ver l.
Proof. intros ver l. induction l as [|k l IH]; intros off; [reflexivity|]. cbn [lay_skels]. rewrite lenN_app, lay_skel_len, IH. reflexivity. Qed.
Lemma skel_size_pos : forall ver k, (0 < skel_size ver k)%N.
Proof. intros ver []. rewrite skel_size_eq. pose proof (header_pos ver). lia. Qed.

(** ** A layout can be read in one way only *)
Lemma app_inv_len : forall A (a b c d : list A), lenN a = lenN c -> a ++ b = c ++ d -> a = c /\ b = d.
Proof.
  intros A a. induction a as [|x a IH]; intros b [|y c] d L E; unfold lenN in L; cbn in L; try lia; [auto|].
  cbn in E. injection E as -> E. destruct (IH b c d) as [-> ->]; [unfold lenN; lia|exact E|]. auto.
Qed.
Lemma le_enc_inj : forall k a b, u_ok k a -> u_ok k b -> le_enc k a = le_enc k b -> a = b.
Proof. intros k a b A B E. rewrite <- (le_dec_enc k a A), <- (le_dec_enc k b B), E. reflexivity. Qed.
Lemma lay_header_inj : forall ver e c a n e' c' a' n' r r', (lenN n < 256)%N -> (lenN n' < 256)%N ->
  u_ok (width ver) e -> u_ok (width ver) e' -> u_ok (width ver) c -> u_ok (width ver) c' -> u_ok (width ver) a -> u_ok (width ver) a' ->
  lay_header ver e c a n ++ r = lay_header ver e' c' a' n' ++ r' -> e = e' /\ c = c' /\ a = a' /\ n = n' /\ r = r'.
Proof.
  intros ver e c a n e' c' a' n' r r' L L' U1 U1' U2 U2' U3 U3' E. unfold lay_header in E. rewrite <- !app_assoc in E.
  apply app_inv_len in E; [|rewrite !le_enc_lenN; reflexivity]. destruct E as [E1 E].
  apply app_inv_len in E; [|rewrite !le_enc_lenN; reflexivity]. destruct E as [E2 E].
  apply app_inv_len in E; [|rewrite !le_enc_lenN; reflexivity]. destruct E as [E3 E].
  cbn [app] in E. injection E as E4 E.
  assert (E5 : lenN n = lenN n'). { apply (f_equal bN) in E4. rewrite !bN_Nb, !N.mod_small in E4 by assumption. exact E4. }
  apply app_inv_len in E; [|exact E5]. destruct E as [E6 E7].
  repeat split; auto; eapply le_enc_inj; eauto.
Qed.

Lemma width_le : forall ver, (2 ^ (8 * N.of_nat (width ver)) <= 2 ^ 64)%N.
Proof. intros. unfold width. destruct (_ <? _)%N; vm_compute; discriminate. Qed.
Lemma end_marker_split : forall ver, exists r, end_marker ver = le_enc (width ver) 0 ++ r.
Proof.
  intros. unfold end_marker, header_size, width. destruct (ver <? 7500)%N; eexists; vm_compute; reflexivity.
Qed.
Lemma skel_end_ok : forall wraps ver off k, skel_ok wraps ver off k -> u_ok (width ver) (off + skel_size ver k)%N.
Proof. intros wraps ver off [] H. apply skel_ok_eq in H. tauto. Qed.
Lemma lay_skel_split : forall ver off k, exists r, lay_skel ver off k = le_enc (width ver) (off + skel_size ver k) ++ r.
Proof. intros ver off []. rewrite lay_skel_eq. unfold lay_header. rewrite <- !app_assoc. eexists. reflexivity. Qed.
Lemma not_marker : forall wraps ver off k r r', skel_ok wraps ver off k -> lay_skel ver off k ++ r = end_marker ver ++ r' -> False.
Proof.
  intros wraps ver off k r r' H E. destruct (lay_skel_split ver off k) as [x Ex]. destruct (end_marker_split ver) as [y Ey].
  rewrite Ex, Ey, <- !app_assoc in E. apply app_inv_len in E; [|rewrite !le_enc_lenN; reflexivity]. destruct E as [E _].
  apply le_enc_inj in E; [|eapply skel_end_ok; eassumption|unfold u_ok; lia]. pose proof (skel_size_pos ver k). lia.
Qed.

Definition is_tail (ver : N) (m : list byte) : Prop := m = [] \/ exists r, m = end_marker ver ++ r.
Definition one_way (wraps : bool) (ver : N) (k : skel) : Prop :=
  forall k' off r r', skel_ok wraps ver off k -> skel_ok wraps ver off k' ->
  lay_skel ver off k ++ r = lay_skel ver off k' ++ r' -> k = k' /\ r = r'.

Lemma list_one_way : forall wraps ver l, Forall (one_way wraps ver) l -> forall l' off m m',
  skels_ok wraps ver off l -> skels_ok wraps ver off l' -> is_tail ver m -> is_tail ver m' ->
  lay_skels ver off l ++ m = lay_skels ver off l' ++ m' -> l = l' /\ m = m'.
Proof.
  intros wraps ver l F. induction F as [|k l Hk F IH]; intros [|k' l'] off m m' O O' T T' E; cbn [lay_skels app] in E.
  - auto.
  - exfalso. rewrite <- app_assoc in E. destruct O' as [O' _]. destruct T as [-> | [r ->]].
    + apply (f_equal lenN) in E. rewrite lenN_app, lay_skel_len in E. pose proof (skel_size_pos ver k'). change (lenN (@nil byte)) with 0%N in E. lia.
    + eapply not_marker; [exact O'|symmetry; exact E].
  - exfalso. rewrite <- app_assoc in E. destruct O as [O _]. destruct T' as [-> | [r ->]].
    + apply (f_equal lenN) in E. rewrite lenN_app, lay_skel_len in E. pose proof (skel_size_pos ver k). change (lenN (@nil byte)) with 0%N in E. lia.
    + eapply not_marker; [exact O|exact E].
  - rewrite <- !app_assoc in E. destruct O as [O1 O2], O' as [O1' O2'].
    destruct (Hk k' off _ _ O1 O1' E) as [-> E2]. destruct (IH l' _ m m' O2 O2' T T' E2) as [-> ->]. auto.
Qed.

Lemma region_len : forall wraps start claimed a b top, (start + lenN a <= top)%N -> (start + lenN b <= top)%N -> (top < 2 ^ 64)%N ->
  region_ok wraps start claimed a -> region_ok wraps start claimed b -> lenN a = lenN b.
Proof.
  intros wraps start claimed a b top A B T [H|(W & H & L)] [H'|(W' & H' & L')]; subst; change (lenN (@nil byte)) with 0%N in *; lia.
Qed.

Lemma tail_if : forall ver (marked : bool), is_tail ver (if marked then end_marker ver else []).
Proof. intros ver []; [right; exists []; rewrite app_nil_r; reflexivity|left; reflexivity]. Qed.

Lemma skel_one_way : forall wraps ver k, one_way wraps ver k.
Proof.
  intros wraps ver k. induction k as [name count claimed region kids marked IH] using skel_ind'.
  intros [name' count' claimed' region' kids' marked'] off r r' O O' E.
  apply skel_ok_eq in O. apply skel_ok_eq in O'.
  destruct O as (_ & N1 & U1 & U2 & U3 & R & K). destruct O' as (_ & N1' & U1' & U2' & U3' & R' & K').
  rewrite !lay_skel_eq, <- !app_assoc in E.
  apply lay_header_inj in E; try assumption. destruct E as (E1 & <- & <- & <- & E).
  assert (S : skel_size ver (Skel name count claimed region kids marked) = skel_size ver (Skel name count claimed region' kids' marked')) by lia.
  assert (L : lenN region = lenN region').
  { apply (region_len wraps (off + header_size ver + lenN name) claimed _ _ (off + skel_size ver (Skel name count claimed region kids marked))); try assumption.
    - rewrite skel_size_eq. lia.
    - rewrite S, skel_size_eq. lia.
    - unfold u_ok in U1. pose proof (width_le ver). lia. }
  apply app_inv_len in E; [|exact L]. destruct E as [<- E].
  rewrite !app_assoc in E. rewrite !skel_size_eq in S.
  apply app_inv_len in E.
  - destruct E as [E <-].
    destruct (list_one_way wraps ver kids IH kids' _ _ _ K K' (tail_if ver marked) (tail_if ver marked') E) as [<- M].
    assert (marked = marked'); [|subst; auto].
    apply (f_equal lenN) in M. destruct marked, marked'; try reflexivity; rewrite end_marker_len in M; pose proof (header_pos ver); change (lenN (@nil byte)) with 0%N in M; lia.
  - rewrite !lenN_app, !lay_skels_len. destruct marked, marked'; rewrite ?end_marker_len; change (lenN (@nil byte)) with 0%N; lia.
Qed.

Lemma doc_one_way : forall wraps ver ver' l l' r r', u_ok 4 ver -> u_ok 4 ver' ->
  skels_ok wraps ver 27 l -> skels_ok wraps ver' 27 l' ->
  lay_doc ver l ++ r = lay_doc ver' l' ++ r' -> ver = ver' /\ l = l' /\ r = r'.
Proof.
  intros wraps ver ver' l l' r r' V V' O O' E. unfold lay_doc in E. rewrite <- !app_assoc in E.
  apply app_inv_head in E. apply app_inv_len in E; [|rewrite !le_enc_lenN; reflexivity]. destruct E as [E1 E].
  apply le_enc_inj in E1; try assumption. subst ver'.
  apply (list_one_way wraps) in E; try assumption.
  - destruct E as [-> E]. apply app_inv_head in E. auto.
  - apply Forall_forall. intros k _. apply skel_one_way.
  - right. eexists. reflexivity.
  - right. eexists. reflexivity.
Qed.
