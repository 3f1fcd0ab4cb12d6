(** Facts about [Base]. *)
Require Import Coq.Lists.List Coq.NArith.NArith Coq.ZArith.ZArith Coq.Bool.Bool Coq.micromega.Lia.
Require Import ZifyBool ZifyNat ZifyN.
Require Import Verif.Base.
Require Coq.Strings.Byte.
Import ListNotations.
Ltac Zify.zify_post_hook ::= Z.div_mod_to_equations.

Lemma bN_lt : forall b, (bN b < 256)%N.
Proof. intros b. unfold bN. pose proof (Coq.Strings.Byte.to_N_bounded b). lia. Qed.

Lemma bN_Nb : forall n, bN (Nb n) = (n mod 256)%N.
Proof.
  intros n. unfold Nb, bN.
  assert (H : (n mod 256 < 256)%N) by (apply N.mod_lt; discriminate).
  destruct (Coq.Strings.Byte.of_N (n mod 256)) as [b|] eqn:E.
  - apply Coq.Strings.Byte.to_of_N; exact E.
  - apply Coq.Strings.Byte.of_N_None_iff in E. lia.
Qed.

Lemma Nb_bN : forall b, Nb (bN b) = b.
Proof.
  intros b. unfold Nb. pose proof (bN_lt b) as H.
  rewrite N.mod_small by exact H.
  unfold bN. rewrite Coq.Strings.Byte.of_to_N. reflexivity.
Qed.

Lemma bN_inj : forall a b, bN a = bN b -> a = b.
Proof. intros a b H. rewrite <- (Nb_bN a), <- (Nb_bN b), H. reflexivity. Qed.

Lemma beqb_eq : forall a b, beqb a b = true <-> a = b.
Proof.
  intros a b. unfold beqb. rewrite N.eqb_eq. split; [apply bN_inj | intros ->; reflexivity].
Qed.

Lemma beqb_refl : forall a, beqb a a = true.
Proof. intros a. apply beqb_eq. reflexivity. Qed.

Lemma bytes_eqb_eq : forall a b, bytes_eqb a b = true <-> a = b.
Proof.
  induction a as [|x a IH]; intros [|y b]; simpl.
  - split; reflexivity.
  - split; discriminate.
  - split; discriminate.
  - rewrite andb_true_iff, beqb_eq, IH. split.
    + intros [-> ->]. reflexivity.
    + intros H. injection H as -> ->. split; reflexivity.
Qed.

Lemma bytes_eqb_refl : forall a, bytes_eqb a a = true.
Proof. intros a. apply bytes_eqb_eq. reflexivity. Qed.

Lemma bytes_eqb_neq : forall a b, bytes_eqb a b = false <-> a <> b.
Proof.
  intros a b. rewrite <- not_true_iff_false, bytes_eqb_eq. reflexivity.
Qed.

Lemma list_byte_eq_dec : forall a b : list byte, {a = b} + {a <> b}.
Proof.
  intros a b. destruct (bytes_eqb a b) eqn:E.
  - left. apply bytes_eqb_eq; exact E.
  - right. apply bytes_eqb_neq; exact E.
Qed.

Lemma lenN_nil : forall A, lenN (@nil A) = 0%N.
Proof. reflexivity. Qed.

Lemma lenN_cons : forall A (x : A) l, lenN (x :: l) = (1 + lenN l)%N.
Proof. intros. unfold lenN. simpl length. lia. Qed.

Lemma lenN_app : forall A (a b : list A), lenN (a ++ b) = (lenN a + lenN b)%N.
Proof. intros. unfold lenN. rewrite app_length. lia. Qed.

Lemma lenN_0 : forall A (l : list A), lenN l = 0%N -> l = [].
Proof. intros A [|x l] H; [reflexivity | rewrite lenN_cons in H; lia]. Qed.

Lemma dropN_skipn : forall A (l : list A) n, dropN n l = skipn (N.to_nat n) l.
Proof.
  induction l as [|x l IH]; intros n; simpl.
  - rewrite skipn_nil. reflexivity.
  - destruct (N.eqb_spec n 0) as [->|H].
    + reflexivity.
    + rewrite IH. replace (N.to_nat n) with (S (N.to_nat (N.pred n))) by lia. reflexivity.
Qed.

Lemma takeN_firstn : forall A (l : list A) n, takeN n l = firstn (N.to_nat n) l.
Proof.
  induction l as [|x l IH]; intros n; simpl.
  - rewrite firstn_nil. reflexivity.
  - destruct (N.eqb_spec n 0) as [->|H].
    + reflexivity.
    + rewrite IH. replace (N.to_nat n) with (S (N.to_nat (N.pred n))) by lia. reflexivity.
Qed.

Lemma takeN_dropN : forall A n (l : list A), takeN n l ++ dropN n l = l.
Proof. intros. rewrite takeN_firstn, dropN_skipn. apply firstn_skipn. Qed.

Lemma dropN_0 : forall A (l : list A), dropN 0 l = l.
Proof. intros A [|x l]; reflexivity. Qed.

Lemma dropN_app_len : forall A (a b : list A), dropN (lenN a) (a ++ b) = b.
Proof.
  intros. rewrite dropN_skipn. unfold lenN. rewrite Nnat.Nat2N.id.
  rewrite skipn_app, skipn_all, Nat.sub_diag. reflexivity.
Qed.

Lemma takeN_app_len : forall A (a b : list A), takeN (lenN a) (a ++ b) = a.
Proof.
  intros. rewrite takeN_firstn. unfold lenN. rewrite Nnat.Nat2N.id.
  rewrite firstn_app, firstn_all, Nat.sub_diag. simpl. apply app_nil_r.
Qed.

Lemma dropN_dropN : forall A (l : list A) n m, dropN n (dropN m l) = dropN (m + n) l.
Proof.
  intros. rewrite !dropN_skipn, N2Nat.inj_add.
  generalize (N.to_nat m) (N.to_nat n). clear. intros m n. revert l.
  induction m as [|m IH]; intros l; simpl; [reflexivity|].
  destruct l; [apply skipn_nil | apply IH].
Qed.

Lemma lenN_dropN : forall A (l : list A) n, lenN (dropN n l) = (lenN l - n)%N.
Proof. intros. rewrite dropN_skipn. unfold lenN. rewrite skipn_length. lia. Qed.

Lemma lenN_takeN : forall A (l : list A) n, lenN (takeN n l) = N.min n (lenN l).
Proof. intros. rewrite takeN_firstn. unfold lenN. rewrite firstn_length. lia. Qed.

Lemma dropN_all : forall A (l : list A) n, (lenN l <= n)%N -> dropN n l = [].
Proof. intros. apply lenN_0. rewrite lenN_dropN. lia. Qed.

Lemma takeN_all : forall A (l : list A) n, (lenN l <= n)%N -> takeN n l = l.
Proof.
  intros. rewrite takeN_firstn. apply firstn_all2. unfold lenN in H. lia.
Qed.

Lemma dropN_app_le : forall A (a b : list A) n, (n <= lenN a)%N -> dropN n (a ++ b) = dropN n a ++ b.
Proof.
  intros A a b n H. rewrite !dropN_skipn, skipn_app.
  unfold lenN in H. replace (N.to_nat n - length a) with 0 by lia. reflexivity.
Qed.

Lemma takeN_app_le : forall A (a b : list A) n, (n <= lenN a)%N -> takeN n (a ++ b) = takeN n a.
Proof.
  intros A a b n H. rewrite !takeN_firstn, firstn_app.
  unfold lenN in H. replace (N.to_nat n - length a) with 0 by lia. simpl. apply app_nil_r.
Qed.

(** ** Little-endian codecs *)

Lemma le_enc_length : forall k n, length (le_enc k n) = k.
Proof. induction k as [|k IH]; intros n; simpl; [reflexivity|]. rewrite IH. reflexivity. Qed.

Lemma le_enc_lenN : forall k n, lenN (le_enc k n) = N.of_nat k.
Proof. intros. unfold lenN. rewrite le_enc_length. reflexivity. Qed.

Lemma le_dec_enc_mod : forall k n, le_dec (le_enc k n) = (n mod 2 ^ (8 * N.of_nat k))%N.
Proof.
  induction k as [|k IH]; intros n.
  - simpl. rewrite N.mod_1_r. reflexivity.
  - cbn [le_enc le_dec]. rewrite bN_Nb, IH.
    replace (8 * N.of_nat (S k))%N with (8 + 8 * N.of_nat k)%N by lia.
    rewrite N.pow_add_r. change (2 ^ 8)%N with 256%N.
    symmetry. apply N.mod_mul_r; [discriminate | apply N.pow_nonzero; discriminate].
Qed.

Lemma le_dec_enc : forall k n, u_ok k n -> le_dec (le_enc k n) = n.
Proof. intros k n H. rewrite le_dec_enc_mod. apply N.mod_small. exact H. Qed.

Lemma le_dec_bound : forall l, (le_dec l < 2 ^ (8 * lenN l))%N.
Proof.
  induction l as [|b l IH].
  - reflexivity.
  - cbn [le_dec]. rewrite lenN_cons. replace (8 * (1 + lenN l))%N with (8 + 8 * lenN l)%N by lia.
    rewrite N.pow_add_r. change (2 ^ 8)%N with 256%N.
    pose proof (bN_lt b). nia.
Qed.

Lemma le_enc_dec : forall l, le_enc (length l) (le_dec l) = l.
Proof.
  induction l as [|b l IH]; [reflexivity|].
  cbn [length le_enc le_dec]. pose proof (bN_lt b) as Hb.
  replace ((bN b + 256 * le_dec l) / 256)%N with (le_dec l) by lia.
  rewrite IH. f_equal.
  rewrite <- (Nb_bN b) at 2. apply bN_inj. rewrite !bN_Nb. lia.
Qed.

Lemma u_okb_iff : forall k n, u_okb k n = true <-> u_ok k n.
Proof. intros. unfold u_okb, u_ok. apply N.ltb_lt. Qed.

Lemma i_okb_iff : forall k n, i_okb k n = true <-> i_ok k n.
Proof. intros. unfold i_okb, i_ok. rewrite andb_true_iff, Z.leb_le, Z.ltb_lt. reflexivity. Qed.

Lemma z2n_ok : forall k z, u_ok k (z2n k z).
Proof.
  intros k z. unfold u_ok, z2n.
  assert (H : (0 < 2 ^ (8 * Z.of_nat k))%Z) by (apply Z.pow_pos_nonneg; lia).
  pose proof (Z.mod_pos_bound z _ H) as Hb.
  apply N2Z.inj_lt. rewrite Z2N.id by lia. rewrite N2Z.inj_pow, N2Z.inj_mul, nat_N_Z. apply Hb.
Qed.

Lemma n2z_z2n : forall k z, 0 < k -> i_ok k z -> n2z k (z2n k z) = z.
Proof.
  intros k z Hk [Hlo Hhi]. unfold n2z, z2n.
  assert (E : (2 ^ (8 * Z.of_nat k) = 2 * 2 ^ (8 * Z.of_nat k - 1))%Z).
  { rewrite <- Z.pow_succ_r by lia. f_equal. lia. }
  set (h := (2 ^ (8 * Z.of_nat k - 1))%Z) in *. rewrite E.
  assert (Hh : (0 < h)%Z) by (apply Z.pow_pos_nonneg; lia).
  assert (Hb := Z.mod_pos_bound z (2 * h) ltac:(lia)).
  rewrite Z2N.id by lia.
  destruct (Z_lt_ge_dec z 0) as [Hn|Hp].
  - assert (Em : (z mod (2 * h) = z + 2 * h)%Z).
    { symmetry. apply Z.mod_unique with (q := (-1)%Z); lia. }
    rewrite Em. destruct (Z.ltb_spec (z + 2 * h) h); lia.
  - rewrite Z.mod_small by lia. destruct (Z.ltb_spec z h); lia.
Qed.

Lemma i_dec_enc : forall k z, 0 < k -> i_ok k z -> i_dec k (i_enc k z) = z.
Proof.
  intros k z Hk H. unfold i_dec, i_enc. rewrite le_dec_enc by apply z2n_ok.
  apply n2z_z2n; assumption.
Qed.

Lemma n2z_ok : forall k n, 0 < k -> u_ok k n -> i_ok k (n2z k n).
Proof.
  intros k n Hk H. unfold u_ok in H. unfold i_ok, n2z.
  assert (E : (2 ^ (8 * Z.of_nat k) = 2 * 2 ^ (8 * Z.of_nat k - 1))%Z).
  { rewrite <- Z.pow_succ_r by lia. f_equal. lia. }
  apply N2Z.inj_lt in H. rewrite N2Z.inj_pow, N2Z.inj_mul, nat_N_Z in H.
  change (Z.of_N 2) with 2%Z in H. change (Z.of_N 8) with 8%Z in H. rewrite E in H. rewrite E.
  set (h := (2 ^ (8 * Z.of_nat k - 1))%Z) in *.
  destruct (Z.ltb_spec (Z.of_N n) h); lia.
Qed.

Lemma i_enc_length : forall k z, length (i_enc k z) = k.
Proof. intros. apply le_enc_length. Qed.

Lemma zeros_length : forall n, length (zeros n) = n.
Proof. intros. apply repeat_length. Qed.
