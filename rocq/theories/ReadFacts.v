(** Successful reads, on streams that do not fail. *)
Require Import Coq.Lists.List Coq.NArith.NArith Coq.ZArith.ZArith Coq.Bool.Bool Coq.micromega.Lia.
Require Import ZifyBool ZifyNat ZifyN.
Require Import Verif.Base Verif.BaseFacts Verif.Types Verif.Io Verif.IoFacts Verif.Parser Verif.MonadFacts.
Import ListNotations.
Ltac Zify.zify_post_hook ::= Z.div_mod_to_equations.

Lemma firstn_len_app : forall A n (a b : list A), length a = n -> firstn n (a ++ b) = a.
Proof. intros A n a b <-. rewrite firstn_app, firstn_all, Nat.sub_diag. cbn. apply app_nil_r. Qed.
Lemma skipn_len_app : forall A n (a b : list A), length a = n -> skipn n (a ++ b) = b.
Proof. intros A n a b <-. rewrite skipn_app, skipn_all, Nat.sub_diag. reflexivity. Qed.

Lemma read_exact_ok : forall n s bs rest, nofail (s_sched (r_stream (p_rd s))) = true ->
  s_rem (r_stream (p_rd s)) = bs ++ rest -> length bs = n -> (r_pos (p_rd s) + N.of_nat n < pow2_64)%N ->
  exists s', read_exact n s = (Ok bs, s') /\ s_rem (r_stream (p_rd s')) = rest /\
    r_pos (p_rd s') = (r_pos (p_rd s) + N.of_nat n)%N /\
    nofail (s_sched (r_stream (p_rd s'))) = true /\ s' = set_rd (p_rd s') s.
Proof.
  intros n s bs rest Hf Hr Hl Hp. unfold read_exact, try_read, rdop, rd_exact.
  destruct (rx_nofail _ (s_rem (r_stream (p_rd s))) n Hf) as (sc' & Hf' & E).
  unfold bind. rewrite E, Hr. rewrite app_length, Hl.
  destruct (Nat.leb n (n + length rest)) eqn:L; [|apply Nat.leb_gt in L; lia].
  rewrite (firstn_len_app _ _ _ _ Hl), (skipn_len_app _ _ _ _ Hl).
  unfold advance, lenN. rewrite Hl. apply N.ltb_lt in Hp. rewrite Hp.
  eexists. split; [reflexivity|]. cbn. auto.
Qed.

(** ** What successful reads say about the stream (any schedule) *)
Lemma read_exact_bytes : forall n s l s', read_exact n s = (Ok l, s') ->
  s_rem (r_stream (p_rd s)) = l ++ s_rem (r_stream (p_rd s')) /\ length l = n /\
  r_pos (p_rd s') = (r_pos (p_rd s) + N.of_nat n)%N /\ s' = set_rd (p_rd s') s.
Proof.
  intros n s l s' H. unfold read_exact, try_read, rdop, bind in H.
  destruct (rd_exact n (p_rd s)) as [[[e|got]|] r'] eqn:E; try discriminate. cbn in H. injection H as -> <-.
  apply rd_exact_spec in E. destruct E as (Hr & Hl & (M1 & M2 & M3 & M4) & _). cbn. rewrite M1, M3.
  repeat split; auto. rewrite Hr. f_equal. rewrite <- Hl. symmetry. apply dropN_app_len.
Qed.
Lemma parse_uint_bytes : forall n s v s', parse_uint n s = (Ok v, s') ->
  s_rem (r_stream (p_rd s)) = le_enc n v ++ s_rem (r_stream (p_rd s')) /\
  r_pos (p_rd s') = (r_pos (p_rd s) + N.of_nat n)%N /\ s' = set_rd (p_rd s') s.
Proof.
  intros n s v s' H. unfold parse_uint in H. mstep H as l s1 E; try discriminate.
  injection H as <- <-. apply read_exact_bytes in E. destruct E as (E1 & E2 & E3 & E4).
  split; [|auto]. rewrite <- E2, le_enc_dec. exact E1.
Qed.
Lemma parse_u8_bytes : forall s v s', parse_u8 s = (Ok v, s') ->
  s_rem (r_stream (p_rd s)) = v :: s_rem (r_stream (p_rd s')) /\
  r_pos (p_rd s') = (r_pos (p_rd s) + 1)%N /\ s' = set_rd (p_rd s') s.
Proof.
  intros s v s' H. unfold parse_u8 in H. mstep H as l s1 E; try discriminate.
  injection H as <- <-. apply read_exact_bytes in E. destruct E as (E1 & E2 & E3 & E4).
  destruct l as [|b [|c t]]; cbn in E2; try discriminate. cbn in *. auto.
Qed.

Definition hdr_bytes (ver : N) (h : node_header) : list byte :=
  le_enc (hdr_width ver) (nh_end h) ++ le_enc (hdr_width ver) (nh_attrs h) ++
  le_enc (hdr_width ver) (nh_alen h) ++ [nh_nlen h].

Lemma read_node_header_bytes : forall s h s', read_node_header s = (Ok h, s') ->
  s_rem (r_stream (p_rd s)) = hdr_bytes (p_ver s) h ++ s_rem (r_stream (p_rd s')) /\
  r_pos (p_rd s') = (r_pos (p_rd s) + lenN (hdr_bytes (p_ver s) h))%N /\ s' = set_rd (p_rd s') s.
Proof.
  intros s h s' H. unfold read_node_header in H. rewrite bind_gets in H.
  mstep H as eo s1 E1; try discriminate. mstep H as na s2 E2; try discriminate.
  mstep H as ba s3 E3; try discriminate. mstep H as nl s4 E4; try discriminate. injection H as <- <-.
  apply parse_uint_bytes in E1. apply parse_uint_bytes in E2. apply parse_uint_bytes in E3. apply parse_u8_bytes in E4.
  destruct E1 as (A1 & B1 & C1), E2 as (A2 & B2 & C2), E3 as (A3 & B3 & C3), E4 as (A4 & B4 & C4).
  unfold hdr_bytes. cbn [nh_end nh_attrs nh_alen nh_nlen]. split; [|split].
  - rewrite A1, A2, A3, A4, <- !app_assoc. reflexivity.
  - rewrite B4, B3, B2, B1, !lenN_app, !le_enc_lenN. change (lenN [nl]) with 1%N. lia.
  - rewrite C4, C3, C2, C1. reflexivity.
Qed.
Lemma hdr_bytes_len : forall ver h, lenN (hdr_bytes ver h) = (3 * N.of_nat (hdr_width ver) + 1)%N.
Proof.
  intros. unfold hdr_bytes. rewrite !lenN_app, !le_enc_lenN. change (lenN [nh_nlen h]) with 1%N. lia.
Qed.
Lemma le_enc_0 : forall k, le_enc k 0 = zeros k.
Proof. induction k; [reflexivity|]. unfold zeros in *. cbn. rewrite <- IHk. reflexivity. Qed.
Lemma zeros_app : forall a b, zeros (a + b) = zeros a ++ zeros b.
Proof. intros. unfold zeros. apply repeat_app. Qed.
Lemma hdr_bytes_end : forall ver h, is_node_end h = true -> hdr_bytes ver h = zeros (3 * hdr_width ver + 1).
Proof.
  intros ver [a b c d] H. unfold is_node_end in H. cbn in H.
  apply andb_true_iff in H. destruct H as [H Hd]. apply andb_true_iff in H. destruct H as [H Hc].
  apply andb_true_iff in H. destruct H as [Ha Hb].
  apply N.eqb_eq in Ha, Hb, Hc, Hd. subst. unfold hdr_bytes. cbn [nh_end nh_attrs nh_alen nh_nlen].
  rewrite le_enc_0. change 0%N with (bN Byte.x00) in Hd. apply bN_inj in Hd. subst d.
  replace (3 * hdr_width ver + 1)%nat with (hdr_width ver + (hdr_width ver + (hdr_width ver + 1)))%nat by lia.
  rewrite !zeros_app. reflexivity.
Qed.
