(** The footer reader against the layout of the footer. *)
Require Import Coq.Lists.List Coq.NArith.NArith Coq.ZArith.ZArith Coq.Bool.Bool Coq.micromega.Lia.
Require Import Coq.Init.Byte.
Require Import ZifyBool ZifyNat ZifyN.
Require Import Verif.Base Verif.BaseFacts Verif.Utf8 Verif.Types Verif.Io Verif.IoFacts Verif.Parser Verif.MonadFacts Verif.Moves Verif.Spec Verif.AttrLoad Verif.DocCursor.
Import ListNotations.
Ltac Zify.zify_post_hook ::= Z.div_mod_to_equations.
Open Scope monad_scope.

Fixpoint ns_eqb (a b : list N) : bool :=
  match a, b with
  | [], [] => true
  | x :: a', y :: b' => (x =? y)%N && ns_eqb a' b'
  | _, _ => false
  end.

(** The high nibbles of the first field. *)
Definition spec_nibbles : list N := [15; 11; 10; 0; 13; 12; 13; 6; 11; 7; 15; 8; 1; 15; 2; 7]%N.
Definition nibbles_ok (u1 : list byte) : bool := ns_eqb (map (fun b => bN b / 16)%N u1) spec_nibbles.
(** The padding that brings [pos] to the next multiple of 16. *)
Definition spec_pad (pos : N) : N := ((16 - pos mod 16) mod 16)%N.

Lemma pad16_spec : forall pos, (pos < pow2_64)%N -> pad16 pos = spec_pad pos.
Proof.
  intros pos H. unfold pad16, spec_pad. change 15%N with (N.ones 4). rewrite N.land_ones. change (2 ^ 4)%N with 16%N.
  change pow2_64 with (16 * 1152921504606846976)%N in *.
  destruct (N.eq_dec pos 0) as [->|Hp]; [reflexivity|].
  rewrite N.mod_small with (b := (16 * 1152921504606846976)%N) by lia. lia.
Qed.
Lemma nib_land : forall b, N.land (bN b) 240 = (16 * (bN b / 16))%N.
Proof. intros b. destruct b; vm_compute; reflexivity. Qed.
Lemma nib_gen : forall l e, length l = length e -> nibbles_differ l (map (fun x => 16 * x)%N e) = negb (ns_eqb (map (fun b => bN b / 16)%N l) e).
Proof.
  induction l as [|b l IH]; intros [|x e] H; try discriminate; [reflexivity|]. cbn [map nibbles_differ ns_eqb].
  rewrite nib_land, IH by (injection H; auto). rewrite negb_andb. f_equal. f_equal.
  destruct (bN b / 16 =? x)%N eqn:E.
  - apply N.eqb_eq in E. rewrite E. apply N.eqb_refl.
  - apply N.eqb_neq in E. apply N.eqb_neq. lia.
Qed.
Lemma nib_spec : forall u1, length u1 = 16%nat -> nibbles_differ u1 unknown1_expected = negb (nibbles_ok u1).
Proof. intros u1 H. unfold nibbles_ok. rewrite <- nib_gen by exact H. reflexivity. Qed.

Definition foot_tail (ver : N) (pad : nat) : list byte := zeros pad ++ zeros 4 ++ le_enc 4 ver ++ zeros 120 ++ spec_trailer.
Lemma le_enc_4 : forall v, exists a b c d, le_enc 4 v = [a; b; c; d].
Proof. intros v. cbn. do 4 eexists. reflexivity. Qed.

Lemma foot_fwd : forall ver pad buf more ext, (pad < 16)%nat -> length buf = 144%nat -> buf ++ more = foot_tail ver pad ++ ext ->
  first_nonzero (skipn 128 buf) = Some pad /\ slice 0 pad buf = zeros pad /\ slice pad (pad + 4) buf = zeros 4 /\
  slice (pad + 4) (pad + 8) buf = le_enc 4 ver /\ slice (pad + 8) (pad + 128) buf = zeros 120 /\
  skipn (pad + 128) buf = firstn (16 - pad) spec_trailer /\ more = skipn (16 - pad) spec_trailer ++ ext.
Proof.
  intros ver pad buf more ext Hp Hl E. unfold foot_tail in E.
  assert (B : buf = firstn 144 (buf ++ more)). { rewrite firstn_app, Hl, Nat.sub_diag, firstn_O, app_nil_r. symmetry. apply firstn_all2. lia. }
  assert (B' : more = skipn 144 (buf ++ more)). { rewrite skipn_app, Hl, Nat.sub_diag. rewrite skipn_all2 by lia. reflexivity. }
  rewrite E in B, B'. clear E Hl. revert B B'. destruct (le_enc_4 ver) as (a & b & c & d & ->).
  do 16 (destruct pad as [|pad]; [intros -> ->; repeat split; reflexivity|]). lia.
Qed.

Lemma app_eq_len : forall A (a b x y : list A), length a = length b -> a ++ x = b ++ y -> a = b /\ x = y.
Proof.
  induction a as [|h a IH]; intros [|h' b] x y L E; try discriminate; [auto|]. injection E as -> E. injection L as L.
  destruct (IH _ _ _ L E) as [-> ->]. auto.
Qed.
Lemma slice_cut : forall A a b (l : list A), (a <= b)%nat -> slice a b l ++ skipn b l = skipn a l.
Proof.
  intros A a b l H. unfold slice. rewrite <- (firstn_skipn (b - a) (skipn a l)) at 2. f_equal.
  revert b l H. induction a as [|a IH]; intros b l H; cbn [skipn]; [rewrite Nat.sub_0_r; reflexivity|].
  destruct b as [|b]; [lia|]. destruct l as [|x l]; [rewrite !skipn_nil; reflexivity|]. cbn [skipn Nat.sub]. apply IH. lia.
Qed.
Lemma all_zero_zeros : forall l, all_zero l = true -> l = zeros (length l).
Proof.
  induction l as [|b l IH]; intros H; [reflexivity|]. cbn in H. apply andb_prop in H. destruct H as [H1 H2].
  cbn [length]. unfold zeros. cbn [repeat]. f_equal; [|apply IH; exact H2].
  apply N.eqb_eq in H1. rewrite <- (Nb_bN b), H1. reflexivity.
Qed.
Lemma all_zero_zeros' : forall n, all_zero (zeros n) = true.
Proof. induction n; [reflexivity|assumption]. Qed.
Lemma first_nonzero_lt : forall l k, first_nonzero l = Some k -> (k < length l)%nat.
Proof.
  induction l as [|b l IH]; intros k H; [discriminate|]. cbn in H. destruct (bN b =? 0)%N; [|injection H as <-; cbn; lia].
  destruct (first_nonzero l) as [j|]; [|discriminate]. injection H as <-. specialize (IH j eq_refl). cbn. lia.
Qed.
Lemma pad_of_k : forall k, (k < 16)%nat -> N.to_nat (N.land (N.of_nat (128 + k)) 15) = k.
Proof. intros k H. do 16 (destruct k as [|k]; [reflexivity|]). lia. Qed.

Section WithEnv.
Context {env : Env}.

Lemma read_exact_err : forall n s r s', ready s -> read_exact n s = (r, s') -> (lenN (rem_of s) < N.of_nat n)%N ->
  exists e, r = Err (err_from (EIo e)).
Proof.
  intros n s r s' [Hc Hr] H Hl. unfold read_exact in H. unfold bind in H. destruct (try_read n s) as [[x|e|] s1] eqn:E.
  - destruct (try_read_calm _ _ _ _ E Hc) as (_ & _ & K). destruct x as [e|got].
    + injection H as <- <-. eexists. reflexivity.
    + destruct K as (K1 & K2 & _). fold (rem_of s) in K1. rewrite K1, lenN_app in Hl. unfold lenN in Hl at 1. lia.
  - unfold try_read, rdop in E. destruct (rd_exact n (p_rd s)) as [[?|] ?]; discriminate.
  - exfalso. unfold try_read, rdop in E. destruct (rd_exact n (p_rd s)) as [[?|] ?] eqn:Ex; [discriminate|].
    apply rd_exact_spec in Ex. unfold room in Hr. lia.
Qed.

Definition footer_of (ver : N) (f : foot) : footer :=
  mkFooter (ft_unknown1 f) (N.of_nat (ft_pad f)) (zeros 4) ver spec_trailer.

(** The warnings, latest first, for a footer starting at [pos]. *)
Definition pad_warnings (pos : N) (pad : nat) : list (warning * synpos) :=
  if (N.of_nat pad =? spec_pad (pos + 16))%N then []
  else [(InvalidFooterPaddingLength (spec_pad (pos + 16)) (N.of_nat pad), mkPos (pos + 16) pos [] None)].
Definition nib_warnings (pos : N) (u1 : list byte) : list (warning * synpos) :=
  if nibbles_ok u1 then [] else [(UnexpectedFooterFieldValue, mkPos pos pos [] None)].

Lemma when_warn : forall (b : bool) w p s, accepts s ->
  when b (warn w p) s = (Ok tt, set_log ((if b then [(w, p)] else []) ++ p_log s) s).
Proof. intros [] w p s H; cbn [when]; [apply warn_accepts; exact H|]. destruct s; reflexivity. Qed.

Lemma split_len : forall A (l : list A) n, (N.of_nat n <= lenN l)%N -> exists a b, l = a ++ b /\ length a = n.
Proof. intros A l n H. exists (firstn n l), (skipn n l). rewrite firstn_skipn. split; [reflexivity|]. apply firstn_length_le. unfold lenN in H. lia. Qed.

Lemma footer_read : forall s ver, ready s -> accepts s -> p_ver s = ver -> u_ok 4 ver ->
  exists r s', read_footer s = (r, s') /\
  match r with
  | Ok ft => exists f ext, foot_ok f /\ rem_of s = enc_footer ver f ++ ext /\ ft = footer_of ver f /\
       rem_of s' = ext /\ pos_of s' = (pos_of s + lenN (enc_footer ver f))%N /\ ready s' /\
       p_log s' = pad_warnings (pos_of s) (ft_pad f) ++ nib_warnings (pos_of s) (ft_unknown1 f) ++ p_log s
  | Err e => (e = err_from (EData BrokenFbxFooter) \/ exists io, e = err_from (EIo io)) /\
       forall f ext, foot_ok f -> rem_of s <> enc_footer ver f ++ ext
  | Panic => False
  end.
Proof.
  intros s ver Hrd Hacc Hv Hu. destruct (read_footer s) as [r s'] eqn:HR. exists r, s'. split; [reflexivity|].
  unfold read_footer in HR. unfold reader_pos in HR at 1. rewrite bind_gets in HR. fold (pos_of s) in HR.
  assert (FL : forall f ext, foot_ok f -> enc_footer ver f ++ ext = ft_unknown1 f ++ foot_tail ver (ft_pad f) ++ ext).
  { intros f ext _. unfold enc_footer, foot_tail. rewrite <- !app_assoc. reflexivity. }
  assert (TL : forall pad, lenN (foot_tail ver pad) = (144 + N.of_nat pad)%N).
  { intros pad. unfold foot_tail. rewrite !lenN_app, le_enc_lenN. unfold zeros, lenN. rewrite !repeat_length. change (length spec_trailer) with 16%nat. lia. }
  destruct (N.le_gt_cases (N.of_nat 16) (lenN (rem_of s))) as [L1|L1].
  2:{ unfold bind at 1 in HR. destruct (read_exact 16 s) as [r1 s1] eqn:E1. destruct (read_exact_err _ _ _ _ Hrd E1 L1) as (e & ->).
      injection HR as <- <-. split; [right; eexists; reflexivity|]. intros f ext Hf E. rewrite E, FL in L1 by exact Hf.
      destruct Hf as [Hf _]. rewrite !lenN_app in L1. unfold lenN in L1 at 1. lia. }
  destruct (split_len _ _ _ L1) as (u1 & r1 & E1 & Lu1).
  destruct (read_exact_mv _ _ _ _ Hrd E1 Lu1) as (s1 & R1 & M1 & Q1 & Y1). rewrite (bind_ok _ _ _ _ _ _ _ R1) in HR.
  unfold reader_pos in HR at 1. rewrite bind_gets in HR. fold (pos_of s1) in HR.
  assert (P1 : pos_of s1 = (pos_of s + 16)%N) by (rewrite (moved_pos _ _ _ M1); reflexivity). rewrite P1 in HR.
  destruct (moved_fields _ _ _ M1) as (F1 & F2 & F3 & F4 & F5 & F6 & (F7 & F8 & F9)).
  assert (A1 : accepts s1) by (unfold accepts; rewrite F8; exact Hacc).
  rewrite (bind_ok _ _ _ _ _ _ _ (when_warn _ _ _ _ A1)) in HR.
  replace (pos_of s + 16 - 16)%N with (pos_of s) in HR by lia. rewrite (nib_spec _ Lu1), F7 in HR.
  replace ((if negb (nibbles_ok u1) then [(UnexpectedFooterFieldValue, mkPos (pos_of s) (pos_of s) [] None)] else []) ++ p_log s)
    with (nib_warnings (pos_of s) u1 ++ p_log s) in HR by (unfold nib_warnings; destruct (nibbles_ok u1); reflexivity).
  set (s2 := set_log (nib_warnings (pos_of s) u1 ++ p_log s) s1) in *.
  unfold reader_pos in HR at 1. rewrite bind_gets in HR. fold (pos_of s2) in HR. change (pos_of s2) with (pos_of s1) in HR. rewrite P1 in HR.
  assert (PB : (pos_of s + 16 < pow2_64)%N). { destruct Y1 as [_ Y1]. unfold room in Y1. fold (pos_of s1) in Y1. lia. }
  rewrite (pad16_spec _ PB) in HR.
  assert (Y2 : ready s2) by exact Y1. assert (Q2 : rem_of s2 = r1) by exact Q1.
  assert (CUT : forall f ext, foot_ok f -> rem_of s = enc_footer ver f ++ ext -> r1 = foot_tail ver (ft_pad f) ++ ext).
  { intros f ext Hf E. rewrite FL in E by exact Hf. rewrite E1 in E. destruct Hf as [Hf _].
    apply app_eq_len in E; [apply E|congruence]. }
  destruct (N.le_gt_cases (N.of_nat 144) (lenN r1)) as [L2|L2].
  2:{ unfold bind at 1 in HR. destruct (read_exact 144 s2) as [r3 s3] eqn:E3. destruct (read_exact_err _ _ _ _ Y2 E3) as (e & ->); [rewrite Q2; exact L2|].
      injection HR as <- <-. split; [right; eexists; reflexivity|]. intros f ext Hf E. apply (CUT _ _ Hf) in E. rewrite E, lenN_app, TL in L2. lia. }
  destruct (split_len _ _ _ L2) as (buf & more & Eb & Lb).
  destruct (read_exact_mv 144 s2 buf more Y2) as (s3 & R3 & M3 & Q3 & Y3); [rewrite Q2; exact Eb|exact Lb|]. rewrite (bind_ok _ _ _ _ _ _ _ R3) in HR.
  (* a footer in the stream determines the pieces *)
  assert (PC : forall f ext, foot_ok f -> rem_of s = enc_footer ver f ++ ext ->
     first_nonzero (skipn 128 buf) = Some (ft_pad f) /\ slice 0 (ft_pad f) buf = zeros (ft_pad f) /\ slice (ft_pad f) (ft_pad f + 4) buf = zeros 4 /\
     slice (ft_pad f + 4) (ft_pad f + 8) buf = le_enc 4 ver /\ slice (ft_pad f + 8) (ft_pad f + 128) buf = zeros 120 /\
     skipn (ft_pad f + 128) buf = firstn (16 - ft_pad f) spec_trailer /\ more = skipn (16 - ft_pad f) spec_trailer ++ ext).
  { intros f ext Hf E. pose proof (CUT _ _ Hf E) as C. rewrite Eb in C. apply foot_fwd; auto. apply Hf. }
  destruct (first_nonzero (skipn 128 buf)) as [k|] eqn:FN.
  2:{ injection HR as <- <-. split; [left; reflexivity|]. intros f ext Hf E. apply (PC _ _ Hf) in E. destruct E; discriminate. }
  assert (K16 : (k < 16)%nat). { apply first_nonzero_lt in FN. rewrite skipn_length, Lb in FN. lia. }
  cbn zeta in HR. rewrite (pad_of_k k K16) in HR.
  replace (Nat.ltb k 16) with true in HR by (symmetry; apply Nat.ltb_lt; exact K16). cbn [assert_] in HR. rewrite bind_ret in HR.
  replace (Nat.eqb (128 + k) (k + 128)) with true in HR by (symmetry; apply Nat.eqb_eq; lia). cbn [assert_] in HR. rewrite bind_ret in HR.
  assert (BR : (@broken footer) s3 = (r, s') -> ~ (slice 0 k buf = zeros k /\ slice k (k + 4) buf = zeros 4 /\
     slice (k + 4) (k + 8) buf = le_enc 4 ver /\ slice (k + 8) (k + 128) buf = zeros 120) ->
     exists e, r = Err e /\ (e = err_from (EData BrokenFbxFooter) \/ exists io, e = err_from (EIo io)) /\
       forall f ext, foot_ok f -> rem_of s <> enc_footer ver f ++ ext).
  { intros HB HN. injection HB as <- <-. eexists. split; [reflexivity|]. split; [left; reflexivity|]. intros f ext Hf E. apply HN. destruct (PC _ _ Hf E) as (C1 & C2 & C3 & C4 & C5 & _).
    injection C1 as ->. auto. }
  destruct (all_zero (slice 0 k buf)) eqn:Z1; cbn [negb] in HR.
  2:{ destruct (BR HR) as (e & -> & K); [|exact K]. intros (C & _). rewrite C, all_zero_zeros' in Z1. discriminate. }
  destruct (bytes_eqb (slice k (k + 4) buf) (zeros 4)) eqn:Z2; cbn [negb] in HR.
  2:{ destruct (BR HR) as (e & -> & K); [|exact K]. intros (_ & C & _). rewrite C, bytes_eqb_refl in Z2. discriminate. }
  rewrite bind_gets in HR. destruct (moved_fields _ _ _ M3) as (G1 & G2 & G3 & G4 & G5 & G6 & (G7 & G8 & G9)).
  replace (p_ver s3) with ver in HR by (rewrite G1; cbn; congruence).
  destruct (le_dec (slice (k + 4) (k + 8) buf) =? ver)%N eqn:Z3; cbn [negb] in HR.
  2:{ destruct (BR HR) as (e & -> & K); [|exact K]. intros (_ & _ & C & _). rewrite C, le_dec_enc, N.eqb_refl in Z3 by exact Hu. discriminate. }
  destruct (all_zero (slice (k + 8) (k + 128) buf)) eqn:Z4; cbn [negb] in HR.
  2:{ destruct (BR HR) as (e & -> & K); [|exact K]. intros (_ & _ & _ & C). rewrite C, all_zero_zeros' in Z4. discriminate. }
  clear BR.
  assert (L3 : length (skipn (k + 128) buf) = (16 - k)%nat) by (rewrite skipn_length, Lb; lia). rewrite L3 in HR.
  replace (16 - (16 - k))%nat with k in HR by lia.
  assert (LS : forall f, foot_ok f -> length (skipn (16 - ft_pad f) spec_trailer) = ft_pad f).
  { intros f [_ Hf]. rewrite skipn_length. cbn [length spec_trailer]. lia. }
  destruct (N.le_gt_cases (N.of_nat k) (lenN more)) as [L4|L4].
  2:{ unfold bind at 1 in HR. destruct (read_exact k s3) as [r4 s4] eqn:E4. destruct (read_exact_err _ _ _ _ Y3 E4) as (e & ->); [rewrite Q3; exact L4|].
      injection HR as <- <-. split; [right; eexists; reflexivity|]. intros f ext Hf E. destruct (PC _ _ Hf E) as (C1 & _ & _ & _ & _ & _ & C).
      injection C1 as ->. rewrite C, lenN_app in L4. unfold lenN in L4 at 1. rewrite (LS _ Hf) in L4. lia. }
  destruct (split_len _ _ _ L4) as (t & ext & Et & Lt).
  destruct (read_exact_mv k s3 t ext Y3) as (s4 & R4 & M4 & Q4 & Y4); [rewrite Q3; exact Et|exact Lt|]. rewrite (bind_ok _ _ _ _ _ _ _ R4) in HR.
  destruct (moved_fields _ _ _ M4) as (J1 & J2 & J3 & J4 & J5 & J6 & (J7 & J8 & J9)).
  destruct (bytes_eqb (skipn (k + 128) buf ++ t) unknown3_expected) eqn:Z5; cbn [negb] in HR.
  2:{ injection HR as <- <-. split; [left; reflexivity|]. intros f ext' Hf E. destruct (PC _ _ Hf E) as (C1 & _ & _ & _ & _ & C2 & C).
      injection C1 as ->. rewrite Et in C. apply app_eq_len in C; [|rewrite (LS _ Hf); exact Lt]. destruct C as [C _]. rewrite C, C2, firstn_skipn in Z5. discriminate. }
  assert (A4 : accepts s4) by (unfold accepts; rewrite J8, G8; exact A1).
  rewrite (bind_ok _ _ _ _ _ _ _ (when_warn _ _ _ _ A4)) in HR. injection HR as <- <-.
  apply bytes_eqb_eq in Z5. apply bytes_eqb_eq in Z2. apply N.eqb_eq in Z3.
  exists (mkFoot u1 k), ext. cbn [ft_unknown1 ft_pad].
  assert (RB : r1 = foot_tail ver k ++ ext).
  { rewrite Eb, Et, app_assoc. f_equal. unfold foot_tail.
    assert (B : buf = slice 0 k buf ++ slice k (k + 4) buf ++ slice (k + 4) (k + 8) buf ++ slice (k + 8) (k + 128) buf ++ skipn (k + 128) buf).
    { rewrite !slice_cut by lia. reflexivity. }
    rewrite B at 1. rewrite <- !app_assoc, Z5. f_equal; [|f_equal; [exact Z2|f_equal; [|f_equal]]].
    - rewrite (all_zero_zeros _ Z1). f_equal. unfold slice. rewrite firstn_length, skipn_length, Lb. lia.
    - rewrite <- Z3. pose proof (le_enc_dec (slice (k + 4) (k + 8) buf)) as LD.
      replace (length (slice (k + 4) (k + 8) buf)) with 4%nat in LD; [symmetry; exact LD|].
      unfold slice. rewrite firstn_length, skipn_length, Lb. lia.
    - rewrite (all_zero_zeros _ Z4). f_equal. unfold slice. rewrite firstn_length, skipn_length, Lb. lia. }
  split; [split; assumption|]. split; [rewrite E1, RB; unfold enc_footer, foot_tail; cbn [ft_unknown1 ft_pad]; rewrite <- !app_assoc; reflexivity|].
  split; [unfold footer_of; cbn [ft_unknown1 ft_pad]; rewrite Z2, Z3, Z5; reflexivity|].
  split; [exact Q4|]. split; [|split; [exact Y4|]].
  - change (pos_of (set_log ((if negb (N.of_nat k =? spec_pad (pos_of s + 16))%N then [(InvalidFooterPaddingLength (spec_pad (pos_of s + 16)) (N.of_nat k), mkPos (pos_of s + 16) (pos_of s) [] None)] else []) ++ p_log s4) s4)) with (pos_of s4).
    rewrite (moved_pos _ _ _ M4), (moved_pos _ _ _ M3). change (pos_of s2) with (pos_of s1). rewrite P1.
    assert (lenN (enc_footer ver (mkFoot u1 k)) = (160 + N.of_nat k)%N) as ->.
    { unfold enc_footer. cbn [ft_unknown1 ft_pad]. change (zeros k ++ zeros 4 ++ le_enc 4 ver ++ zeros 120 ++ spec_trailer) with (foot_tail ver k).
      rewrite lenN_app, TL. unfold lenN. rewrite Lu1. lia. }
    lia.
  - cbn [p_log set_log]. rewrite J7, G7. unfold s2. cbn [p_log set_log]. unfold pad_warnings. destruct (N.of_nat k =? spec_pad (pos_of s + 16))%N; reflexivity.
Qed.

(** Two footers at the same place are the same. *)
Lemma footer_unique : forall ver f g ext ext', foot_ok f -> foot_ok g -> enc_footer ver f ++ ext = enc_footer ver g ++ ext' -> f = g /\ ext = ext'.
Proof.
  intros ver [u p] [u' p'] ext ext' [L1 P1] [L2 P2] E. cbn [ft_unknown1 ft_pad] in *.
  assert (FL : forall u0 p0 e, enc_footer ver (mkFoot u0 p0) ++ e = u0 ++ foot_tail ver p0 ++ e).
  { intros. unfold enc_footer, foot_tail. cbn [ft_unknown1 ft_pad]. rewrite <- !app_assoc. reflexivity. }
  rewrite !FL in E. apply app_eq_len in E; [|congruence]. destruct E as [-> U].
  assert (TL : forall pad, length (foot_tail ver pad) = (144 + pad)%nat).
  { intros pad. unfold foot_tail, zeros. rewrite !app_length, le_enc_length, !repeat_length. change (length spec_trailer) with 16%nat. lia. }
  set (l := foot_tail ver p ++ ext) in *.
  assert (LL : (144 <= length l)%nat) by (unfold l; rewrite app_length, TL; lia).
  assert (SP : firstn 144 l ++ skipn 144 l = l) by apply firstn_skipn.
  assert (LB : length (firstn 144 l) = 144%nat) by (apply firstn_length_le; exact LL).
  destruct (foot_fwd ver p _ _ ext P1 LB SP) as (A & _).
  rewrite U in SP. destruct (foot_fwd ver p' (firstn 144 l) (skipn 144 l) ext' P2 LB) as (B & _). { rewrite U in *. exact SP. }
  rewrite A in B. injection B as ->. split; [reflexivity|]. unfold l in U. apply app_inv_head in U. exact U.
Qed.

End WithEnv.
