(** C61: comparison of attribute values with [==]; conversions into attribute values. *)
Require Import Coq.Lists.List Coq.NArith.NArith Coq.ZArith.ZArith Coq.Bool.Bool Coq.micromega.Lia Coq.Floats.SpecFloat.
Require Import Coq.Init.Byte.
Require Import ZifyBool ZifyNat ZifyN.
Require Import Verif.Base Verif.BaseFacts Verif.Types Verif.Values Verif.Spec Verif.PropsTreeEq.
Import ListNotations.
Ltac Zify.zify_post_hook ::= Z.div_mod_to_equations.

(** ** Specification *)

(** A binary float of [ew] exponent bits and [mw] mantissa bits, as bits: its magnitude without
    the sign; is it a zero, is it not a number. *)
Definition magnitude (mw ew n : N) : N := (n mod 2 ^ (mw + ew))%N.
Definition is_zero (mw ew n : N) : Prop := magnitude mw ew n = 0%N.
Definition is_nan (mw ew n : N) : Prop := ((2 ^ ew - 1) * 2 ^ mw < magnitude mw ew n)%N.
Definition num_eq (mw ew a b : N) : Prop := ~ is_nan mw ew a /\ (a = b \/ is_zero mw ew a /\ is_zero mw ew b).

(** Two values that are equal as numbers. *)
Inductive equal_values : aval -> aval -> Prop :=
| Eq_bool : forall x, equal_values (VBool x) (VBool x)
| Eq_i16 : forall x, equal_values (VI16 x) (VI16 x)
| Eq_i32 : forall x, equal_values (VI32 x) (VI32 x)
| Eq_i64 : forall x, equal_values (VI64 x) (VI64 x)
| Eq_f32 : forall x y, num_eq 23 8 x y -> equal_values (VF32 x) (VF32 y)
| Eq_f64 : forall x y, num_eq 52 11 x y -> equal_values (VF64 x) (VF64 y)
| Eq_abool : forall x, equal_values (VArrBool x) (VArrBool x)
| Eq_ai32 : forall x, equal_values (VArrI32 x) (VArrI32 x)
| Eq_ai64 : forall x, equal_values (VArrI64 x) (VArrI64 x)
| Eq_af32 : forall x y, Forall2 (num_eq 23 8) x y -> equal_values (VArrF32 x) (VArrF32 y)
| Eq_af64 : forall x y, Forall2 (num_eq 52 11) x y -> equal_values (VArrF64 x) (VArrF64 y)
| Eq_binary : forall x, equal_values (VBinary x) (VBinary x)
| Eq_string : forall x, equal_values (VString x) (VString x).

(** The floats of a value are bit patterns of their width, as [f32] and [f64] are. *)
Definition floats_ok (v : aval) : Prop :=
  match v with
  | VF32 n => u_ok 4 n | VF64 n => u_ok 8 n
  | VArrF32 l => Forall (u_ok 4) l | VArrF64 l => Forall (u_ok 8) l
  | _ => True
  end.
(** No float of the value is a NaN. *)
Definition no_nan (v : aval) : Prop :=
  match v with
  | VF32 n => ~ is_nan 23 8 n | VF64 n => ~ is_nan 52 11 n
  | VArrF32 l => Forall (fun n => ~ is_nan 23 8 n) l | VArrF64 l => Forall (fun n => ~ is_nan 52 11 n) l
  | _ => True
  end.

(** ** Model *)

(** The number that the bits of a Rust [f32] ([mw] = 23, [ew] = 8) or [f64] ([mw] = 52, [ew] = 11)
    stand for, in the standard library's datatype of IEEE 754 numbers. *)
Definition float_of_bits (mw ew n : N) : spec_float :=
  let s := (2 ^ (mw + ew) <=? n)%N in
  let e := ((n / 2 ^ mw) mod 2 ^ ew)%N in
  let m := (n mod 2 ^ mw)%N in
  let emin := (2 - 2 ^ (Z.of_N ew - 1) - Z.of_N mw)%Z in
  if (e =? 2 ^ ew - 1)%N then (if (m =? 0)%N then S754_infinity s else S754_nan)
  else if (e =? 0)%N then match m with N0 => S754_zero s | Npos p => S754_finite s p emin end
  else S754_finite s (N.succ_pos (m + (2 ^ mw - 1)))%N (emin + Z.of_N e - 1).

(** [==] of [f32] and [f64]: IEEE 754 equality. *)
Definition f32_eqb (a b : N) : bool := SFeqb (float_of_bits 23 8 a) (float_of_bits 23 8 b).
Definition f64_eqb (a b : N) : bool := SFeqb (float_of_bits 52 11 a) (float_of_bits 52 11 b).

(** The derived [PartialEq], /repo/src/low/v7400/attribute/value.rs line 17: same variant and
    [==] contents. *)
Definition aval_eqb (a b : aval) : bool :=
  match a, b with
  | VBool l, VBool r => Bool.eqb l r
  | VI16 l, VI16 r => Z.eqb l r
  | VI32 l, VI32 r => Z.eqb l r
  | VI64 l, VI64 r => Z.eqb l r
  | VF32 l, VF32 r => f32_eqb l r
  | VF64 l, VF64 r => f64_eqb l r
  | VArrBool l, VArrBool r => list_eqb Bool.eqb l r
  | VArrI32 l, VArrI32 r => list_eqb Z.eqb l r
  | VArrI64 l, VArrI64 r => list_eqb Z.eqb l r
  | VArrF32 l, VArrF32 r => list_eqb f32_eqb l r
  | VArrF64 l, VArrF64 r => list_eqb f64_eqb l r
  | VBinary l, VBinary r => bytes_eqb l r
  | VString l, VString r => bytes_eqb l r
  | _, _ => false
  end.

(** The types with a conversion into [AttributeValue] (value.rs lines 282-301).  A vector and a
    slice of it have the same elements. *)
Inductive rust_value :=
| RBool (x : bool) | RI16 (x : Z) | RI32 (x : Z) | RI64 (x : Z) | RF32 (x : N) | RF64 (x : N)
| RVecBool (x : list bool) | RVecI32 (x : list Z) | RVecI64 (x : list Z) | RVecF32 (x : list N) | RVecF64 (x : list N) | RVecU8 (x : list byte) | RString (x : list byte)
| RSliceBool (x : list bool) | RSliceI32 (x : list Z) | RSliceI64 (x : list Z) | RSliceF32 (x : list N) | RSliceF64 (x : list N) | RSliceU8 (x : list byte) | RStr (x : list byte).

(** [From::from], value.rs lines 263-301. *)
Definition from (r : rust_value) : aval :=
  match r with
  | RBool x => VBool x | RI16 x => VI16 x | RI32 x => VI32 x | RI64 x => VI64 x | RF32 x => VF32 x | RF64 x => VF64 x
  | RVecBool x | RSliceBool x => VArrBool x
  | RVecI32 x | RSliceI32 x => VArrI32 x
  | RVecI64 x | RSliceI64 x => VArrI64 x
  | RVecF32 x | RSliceF32 x => VArrF32 x
  | RVecF64 x | RSliceF64 x => VArrF64 x
  | RVecU8 x | RSliceU8 x => VBinary x
  | RString x | RStr x => VString x
  end.

(** ** Floats *)
Lemma succ_pos_inj : forall a b, N.succ_pos a = N.succ_pos b -> a = b.
Proof. intros a b H. assert (X : N.pos (N.succ_pos a) = N.pos (N.succ_pos b)) by congruence. rewrite !N.succ_pos_spec in X. lia. Qed.

Lemma sfeqb_finite : forall s1 m1 e1 s2 m2 e2, SFeqb (S754_finite s1 m1 e1) (S754_finite s2 m2 e2) = true <-> s1 = s2 /\ m1 = m2 /\ e1 = e2.
Proof.
  intros. unfold SFeqb, SFcompare. destruct s1, s2.
  - destruct (Z.compare_spec e1 e2) as [E|E|E]; split; intros H; try discriminate; try (destruct H as (_ & _ & H); lia).
    + change (Pcompare m1 m2 Eq) with (Pos.compare m1 m2) in H. destruct (Pos.compare_spec m1 m2); try discriminate. auto.
    + destruct H as (_ & -> & _). change (Pcompare m2 m2 Eq) with (Pos.compare m2 m2). rewrite Pos.compare_refl. reflexivity.
  - split; [discriminate|intros [H _]; discriminate].
  - split; [discriminate|intros [H _]; discriminate].
  - destruct (Z.compare_spec e1 e2) as [E|E|E]; split; intros H; try discriminate; try (destruct H as (_ & _ & H); lia).
    + change (Pcompare m1 m2 Eq) with (Pos.compare m1 m2) in H. destruct (Pos.compare_spec m1 m2); try discriminate. auto.
    + destruct H as (_ & -> & _). change (Pcompare m2 m2 Eq) with (Pos.compare m2 m2). rewrite Pos.compare_refl. reflexivity.
Qed.

Section Bits.
Context (mw ew : N) (Hm : (1 <= mw)%N) (He : (2 <= ew)%N).
Let M := (2 ^ mw)%N. Let E := (2 ^ ew)%N.
Definition sgn (n : N) : bool := (2 ^ (mw + ew) <=? n)%N.
Definition expo (n : N) : N := ((n / 2 ^ mw) mod 2 ^ ew)%N.
Definition mant (n : N) : N := (n mod 2 ^ mw)%N.

Lemma parts : forall n, (n < 2 ^ (1 + mw + ew))%N ->
  n = ((if sgn n then 1 else 0) * (M * E) + expo n * M + mant n)%N /\ (mant n < M)%N /\ (expo n < E)%N /\ magnitude mw ew n = (expo n * M + mant n)%N.
Proof.
  intros n H. unfold magnitude, sgn, expo, mant. rewrite N.pow_add_r. fold M E. rewrite <- N.add_assoc, N.pow_add_r, N.pow_add_r in H. fold M E in H. change (2 ^ 1)%N with 2%N in H.
  assert (M0 : M <> 0%N) by (apply N.pow_nonzero; discriminate). assert (E0 : E <> 0%N) by (apply N.pow_nonzero; discriminate).
  pose proof (N.div_mod n M M0) as D1. pose proof (N.div_mod (n / M) E E0) as D2. pose proof (N.mod_upper_bound n M M0) as U1. pose proof (N.mod_upper_bound (n / M) E E0) as U2.
  assert (Q : (n mod (M * E) = (n / M) mod E * M + n mod M)%N) by (rewrite N.mod_mul_r by assumption; lia).
  assert (D3 : (n / M / E = if (M * E <=? n) then 1 else 0)%N).
  { rewrite N.div_div by assumption. destruct (N.leb_spec (M * E) n) as [L|L].
    - symmetry. apply (N.div_unique n (M * E) 1 (n - M * E)); lia.
    - apply N.div_small. exact L. }
  split; [|auto]. rewrite D3 in D2. remember ((n / M) mod E)%N as e. remember (n mod M)%N as m. rewrite D2 in D1. rewrite D1 at 1. destruct (M * E <=? n)%N; ring.
Qed.

Lemma decode_parts : forall n, float_of_bits mw ew n =
  let emin := (2 - 2 ^ (Z.of_N ew - 1) - Z.of_N mw)%Z in
  if (expo n =? E - 1)%N then (if (mant n =? 0)%N then S754_infinity (sgn n) else S754_nan)
  else if (expo n =? 0)%N then match mant n with N0 => S754_zero (sgn n) | Npos p => S754_finite (sgn n) p emin end
  else S754_finite (sgn n) (N.succ_pos (mant n + (M - 1)))%N (emin + Z.of_N (expo n) - 1).
Proof. reflexivity. Qed.

Lemma float_eq : forall a b, (a < 2 ^ (1 + mw + ew))%N -> (b < 2 ^ (1 + mw + ew))%N ->
  SFeqb (float_of_bits mw ew a) (float_of_bits mw ew b) = true <-> num_eq mw ew a b.
Proof.
  intros a b Ha Hb. destruct (parts a Ha) as (Da & Ma & Ea & Ga). destruct (parts b Hb) as (Db & Mb & Eb & Gb).
  unfold num_eq, is_nan, is_zero. fold M E. rewrite Ga, Gb, !decode_parts. cbv zeta.
  assert (E2 : (4 <= E)%N) by (unfold E; change 4%N with (2 ^ 2)%N; apply N.pow_le_mono_r; lia).
  assert (M2 : (2 <= M)%N) by (unfold M; change 2%N with (2 ^ 1)%N at 1; apply N.pow_le_mono_r; lia).
  assert (K : a = b <-> sgn a = sgn b /\ expo a = expo b /\ mant a = mant b) by (split; [intros ->; auto|intros (X & Y & Z); rewrite Da, Db, X, Y, Z; reflexivity]).
  rewrite K. clear K Da Db Ga Gb Ha Hb. generalize dependent (mant b). generalize dependent (mant a). generalize dependent (expo b). generalize dependent (expo a).
  generalize (sgn a) (sgn b). clear a b. intros sa sb ea Ea eb Eb ma Ma mb Mb. set (emin := (2 - 2 ^ (Z.of_N ew - 1) - Z.of_N mw)%Z). clearbody emin.
  assert (Na : ((E - 1) * M < ea * M + ma <-> ea = E - 1 /\ ma <> 0)%N).
  { split; [|intros [-> ?]; lia]. intros L. destruct (N.eq_dec ea (E - 1)) as [->|D]; [lia|]. exfalso. assert (ea + 1 <= E - 1)%N by lia. nia. }
  assert (Za : forall e m, (e * M + m = 0 <-> e = 0 /\ m = 0)%N) by (intros; split; [intros; nia|intros [-> ->]; reflexivity]).
  rewrite Na, !Za.
  destruct (N.eqb_spec ea (E - 1)) as [Xa|Xa]; destruct (N.eqb_spec eb (E - 1)) as [Xb|Xb].
  - destruct (N.eqb_spec ma 0) as [Ya|Ya].
    + destruct (N.eqb_spec mb 0) as [Yb|Yb].
      * unfold SFeqb, SFcompare. destruct sa, sb; split; intros H; try discriminate; try reflexivity; try (split; [lia|left; repeat split; congruence]);
          destruct H as [_ [(H & _)|H]]; try discriminate; lia.
      * split; [discriminate|]. intros [_ [(_ & _ & H)|H]]; lia.
    + split; [discriminate|]. intros [H _]. tauto.
  - destruct (N.eqb_spec ma 0) as [Ya|Ya].
    + assert (X : SFeqb (S754_infinity sa) (if (eb =? 0)%N then match mb with 0%N => S754_zero sb | N.pos p => S754_finite sb p emin end else S754_finite sb (N.succ_pos (mb + (M - 1))) (emin + Z.of_N eb - 1)) = false)
        by (destruct (eb =? 0)%N; [destruct mb|]; destruct sa; reflexivity).
      rewrite X. split; [discriminate|]. intros [_ [(_ & H & _)|H]]; lia.
    + split; [discriminate|]. intros [H _]. tauto.
  - assert (X : SFeqb (if (ea =? 0)%N then match ma with 0%N => S754_zero sa | N.pos p => S754_finite sa p emin end else S754_finite sa (N.succ_pos (ma + (M - 1))) (emin + Z.of_N ea - 1))
        (if (mb =? 0)%N then S754_infinity sb else S754_nan) = false)
      by (destruct (ea =? 0)%N; [destruct ma|]; destruct (mb =? 0)%N; destruct sb; reflexivity).
    rewrite X. split; [discriminate|]. intros [_ [(_ & H & _)|H]]; lia.
  - destruct (N.eqb_spec ea 0) as [Wa|Wa]; destruct (N.eqb_spec eb 0) as [Wb|Wb].
    + subst ea eb. destruct ma as [|pa], mb as [|pb].
      * unfold SFeqb, SFcompare. split; [intros _|reflexivity]. split; [lia|right; auto].
      * split; [destruct sb; discriminate|]. intros [_ [(_ & _ & H)|H]]; lia.
      * split; [destruct sa; discriminate|]. intros [_ [(_ & _ & H)|H]]; lia.
      * rewrite sfeqb_finite. split; [intros (-> & -> & _); split; [lia|left; auto]|]. intros [_ [(-> & _ & H)|H]]; [injection H as ->; auto|lia].
    + subst ea. destruct ma as [|pa].
      * split; [destruct sb; discriminate|]. intros [_ [(_ & H & _)|H]]; lia.
      * rewrite sfeqb_finite. split; [intros (_ & H & _)|intros [_ [(_ & H & _)|H]]; lia]. exfalso. apply (f_equal N.pos) in H. rewrite N.succ_pos_spec in H. lia.
    + subst eb. destruct mb as [|pb].
      * split; [destruct sa; discriminate|]. intros [_ [(_ & H & _)|H]]; lia.
      * rewrite sfeqb_finite. split; [intros (_ & H & _)|intros [_ [(_ & H & _)|H]]; lia]. exfalso. apply (f_equal N.pos) in H. rewrite N.succ_pos_spec in H. lia.
    + rewrite sfeqb_finite. split.
      * intros (-> & H & X). apply succ_pos_inj in H. split; [lia|left; repeat split; lia].
      * intros [_ [(-> & -> & ->)|H]]; [auto|lia].
Qed.
End Bits.

Lemma f32_eq : forall a b, u_ok 4 a -> u_ok 4 b -> f32_eqb a b = true <-> num_eq 23 8 a b.
Proof. intros a b Ha Hb. apply float_eq; [lia|lia|exact Ha|exact Hb]. Qed.
Lemma f64_eq : forall a b, u_ok 8 a -> u_ok 8 b -> f64_eqb a b = true <-> num_eq 52 11 a b.
Proof. intros a b Ha Hb. apply float_eq; [lia|lia|exact Ha|exact Hb]. Qed.

(** ** Values *)
Lemma list_eqb_iff : forall A (eqb : A -> A -> bool) (ok : A -> Prop) (R : A -> A -> Prop),
  (forall x y, ok x -> ok y -> (eqb x y = true <-> R x y)) -> forall a b, Forall ok a -> Forall ok b -> (list_eqb eqb a b = true <-> Forall2 R a b).
Proof.
  intros A eqb ok R H a. induction a as [|x a IH]; intros [|y b] Ha Hb; cbn [list_eqb].
  - split; [constructor|reflexivity].
  - split; [discriminate|intros X; inversion X].
  - split; [discriminate|intros X; inversion X].
  - inversion Ha; inversion Hb; subst. rewrite andb_true_iff, H, IH by assumption. split; [intros [? ?]; constructor; assumption|intros X; inversion X; auto].
Qed.
Lemma list_eqb_same : forall A (eqb : A -> A -> bool), (forall x y, eqb x y = true <-> x = y) -> forall a b, list_eqb eqb a b = true <-> a = b.
Proof.
  intros A eqb H a b. rewrite (list_eqb_iff _ _ (fun _ => True) eq); [| |apply Forall_forall; auto|apply Forall_forall; auto].
  - split; [intros F; induction F; congruence|intros ->; induction b; constructor; auto].
  - intros. apply H.
Qed.

(** [a == b] exactly if the values have the same type and are equal as numbers. *)
Theorem C61_eq : forall a b, floats_ok a -> floats_ok b -> (aval_eqb a b = true <-> equal_values a b).
Proof.
  intros a b Ha Hb. destruct a, b; cbn [aval_eqb floats_ok] in *; try (split; [discriminate|intros X; inversion X]; fail).
  - rewrite Bool.eqb_true_iff. split; [intros ->; constructor|intros X; inversion X; reflexivity].
  - rewrite Z.eqb_eq. split; [intros ->; constructor|intros X; inversion X; reflexivity].
  - rewrite Z.eqb_eq. split; [intros ->; constructor|intros X; inversion X; reflexivity].
  - rewrite Z.eqb_eq. split; [intros ->; constructor|intros X; inversion X; reflexivity].
  - rewrite f32_eq by assumption. split; [intros; constructor; assumption|intros X; inversion X; assumption].
  - rewrite f64_eq by assumption. split; [intros; constructor; assumption|intros X; inversion X; assumption].
  - rewrite (list_eqb_same _ _ Bool.eqb_true_iff). split; [intros ->; constructor|intros X; inversion X; reflexivity].
  - rewrite (list_eqb_same _ _ Z.eqb_eq). split; [intros ->; constructor|intros X; inversion X; reflexivity].
  - rewrite (list_eqb_same _ _ Z.eqb_eq). split; [intros ->; constructor|intros X; inversion X; reflexivity].
  - rewrite (list_eqb_iff _ _ _ _ f32_eq) by assumption. split; [intros; constructor; assumption|intros X; inversion X; assumption].
  - rewrite (list_eqb_iff _ _ _ _ f64_eq) by assumption. split; [intros; constructor; assumption|intros X; inversion X; assumption].
  - rewrite bytes_eqb_eq. split; [intros ->; constructor|intros X; inversion X; reflexivity].
  - rewrite bytes_eqb_eq. split; [intros ->; constructor|intros X; inversion X; reflexivity].
Qed.

Lemma num_eq_sym : forall mw ew a b, num_eq mw ew a b -> num_eq mw ew b a.
Proof. unfold num_eq, is_nan, is_zero. intros mw ew a b [H [->|[X Y]]]; split; auto. rewrite Y. lia. Qed.
Lemma num_eq_trans : forall mw ew a b c, num_eq mw ew a b -> num_eq mw ew b c -> num_eq mw ew a c.
Proof. unfold num_eq, is_nan, is_zero. intros mw ew a b c [H [->|[X Y]]] [K [->|[Z W]]]; split; auto. Qed.
Lemma num_eq_refl : forall mw ew a, num_eq mw ew a a <-> ~ is_nan mw ew a.
Proof. unfold num_eq. tauto. Qed.
Lemma forall2_refl : forall mw ew l, Forall2 (num_eq mw ew) l l <-> Forall (fun n => ~ is_nan mw ew n) l.
Proof.
  induction l as [|x l IH]; [split; constructor|]. split; intros H; inversion H; subst; constructor.
  - apply -> num_eq_refl. eassumption.
  - apply IH. assumption.
  - apply <- num_eq_refl. assumption.
  - apply IH. assumption.
Qed.
Lemma forall2_sym : forall A (R : A -> A -> Prop), (forall x y, R x y -> R y x) -> forall a b, Forall2 R a b -> Forall2 R b a.
Proof. intros A R H a b F. induction F; constructor; auto. Qed.
Lemma forall2_trans : forall A (R : A -> A -> Prop), (forall x y z, R x y -> R y z -> R x z) -> forall a b c, Forall2 R a b -> Forall2 R b c -> Forall2 R a c.
Proof. intros A R H a b c F. revert c. induction F; intros c G; inversion G; subst; constructor; eauto. Qed.

(** [==] is symmetric and transitive; a value equals itself exactly if it holds no NaN. *)
Theorem C61_partial_equivalence :
  (forall a b, floats_ok a -> floats_ok b -> aval_eqb a b = true -> aval_eqb b a = true) /\
  (forall a b c, floats_ok a -> floats_ok b -> floats_ok c -> aval_eqb a b = true -> aval_eqb b c = true -> aval_eqb a c = true) /\
  (forall a, floats_ok a -> (aval_eqb a a = true <-> no_nan a)).
Proof.
  split; [|split].
  - intros a b Ha Hb H. apply C61_eq in H; [|assumption|assumption]. apply C61_eq; [assumption|assumption|].
    destruct H; constructor; eauto using num_eq_sym, forall2_sym.
  - intros a b c Ha Hb Hc H K. apply C61_eq in H; [|assumption|assumption]. apply C61_eq in K; [|assumption|assumption]. apply C61_eq; [assumption|assumption|].
    destruct H; inversion K; subst; constructor; eauto using num_eq_trans, forall2_trans.
  - intros a Ha. rewrite C61_eq by assumption. split.
    + intros H. inversion H; subst; cbn [no_nan]; auto; first [apply -> num_eq_refl; assumption|apply -> forall2_refl; assumption].
    + destruct a; cbn [no_nan]; intros H; constructor; first [apply <- num_eq_refl; assumption|apply <- forall2_refl; assumption].
Qed.

(** Values that are strictly equal are [==] exactly if they hold no NaN.  By [C61_eq], values that are [==]
    without being strictly equal differ only in the signs of zeros. *)
Theorem C61_strict_and_eq : forall a b, floats_ok a -> floats_ok b -> aval_strict_eq a b = true -> (aval_eqb a b = true <-> no_nan a).
Proof. intros a b Ha Hb H. apply C38_value_strict_eq in H. subst b. apply C61_partial_equivalence. exact Ha. Qed.

(** A conversion gives the type that the Rust type stands for, and the getter of that type gives
    the value back; borrowed and owned data give the same. *)
Theorem C61_from : forall r,
  match r with
  | RBool x => get_bool (from r) = Some x
  | RI16 x => get_i16 (from r) = Some x
  | RI32 x => get_i32 (from r) = Some x
  | RI64 x => get_i64 (from r) = Some x
  | RF32 x => get_f32 (from r) = Some x
  | RF64 x => get_f64 (from r) = Some x
  | RVecBool x | RSliceBool x => get_arr_bool (from r) = Some x
  | RVecI32 x | RSliceI32 x => get_arr_i32 (from r) = Some x
  | RVecI64 x | RSliceI64 x => get_arr_i64 (from r) = Some x
  | RVecF32 x | RSliceF32 x => get_arr_f32 (from r) = Some x
  | RVecF64 x | RSliceF64 x => get_arr_f64 (from r) = Some x
  | RVecU8 x | RSliceU8 x => get_binary (from r) = Some x
  | RString x | RStr x => get_string (from r) = Some x
  end.
Proof. intros r. destruct r; reflexivity. Qed.

(** ** Concrete cases *)

(** 0.0 == -0.0, which are not strictly equal; a NaN is strictly equal to itself and not [==]. *)
Example C61_zeros_ex : floats_ok (VArrF32 [0; 1065353216]%N) /\ floats_ok (VArrF32 [2147483648; 1065353216]%N) /\
  aval_eqb (VArrF32 [0; 1065353216]%N) (VArrF32 [2147483648; 1065353216]%N) = true /\
  aval_strict_eq (VArrF32 [0; 1065353216]%N) (VArrF32 [2147483648; 1065353216]%N) = false.
Proof. repeat split; repeat constructor. Qed.
Example C61_nan_ex : floats_ok (VF64 9221120237041090560) /\ aval_eqb (VF64 9221120237041090560) (VF64 9221120237041090560) = false /\
  aval_strict_eq (VF64 9221120237041090560) (VF64 9221120237041090560) = true.
Proof. repeat split. Qed.
(** 1.5, the largest number, the smallest, an infinity. *)
Example C61_decode_ex : float_of_bits 52 11 4609434218613702656 = S754_finite false 6755399441055744 (-52) /\
  float_of_bits 52 11 9218868437227405311 = S754_finite false 9007199254740991 971 /\
  float_of_bits 52 11 9223372036854775809 = S754_finite true 1 (-1074) /\ float_of_bits 23 8 4286578688 = S754_infinity true.
Proof. repeat split. Qed.
Example C61_from_ex : get_arr_i32 (from (RSliceI32 [7; -8]%Z)) = Some [7; -8]%Z.
Proof. reflexivity. Qed.
