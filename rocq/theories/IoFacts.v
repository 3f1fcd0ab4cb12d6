(** Facts about readers. *)
Require Import Coq.Lists.List Coq.NArith.NArith Coq.ZArith.ZArith Coq.Bool.Bool Coq.micromega.Lia.
Require Import ZifyBool ZifyNat ZifyN.
Require Import Verif.Base Verif.BaseFacts Verif.Types Verif.Io.
Import ListNotations.
Ltac Zify.zify_post_hook ::= Z.div_mod_to_equations.

(** A schedule in which no call fails. *)
Definition nofail (sc : list ioact) : bool :=
  forallb (fun a => match a with AFail _ => false | _ => true end) sc.
Definition noseekfail (sk : list (option N)) : bool :=
  forallb (fun a => match a with Some _ => false | None => true end) sk.

Lemma firstn_add_app : forall A (l : list A) a b, firstn a l ++ firstn b (skipn a l) = firstn (a + b) l.
Proof.
  induction l as [|x l IH]; intros a b; destruct a; simpl; rewrite ?firstn_nil; try reflexivity.
  rewrite IH. reflexivity.
Qed.

Lemma skipn_skipn_add : forall A (l : list A) a b, skipn b (skipn a l) = skipn (a + b) l.
Proof.
  induction l as [|x l IH]; intros a b; destruct a; simpl; rewrite ?skipn_nil; try reflexivity.
  apply IH.
Qed.

Lemma rx_nofail : forall sc rem n, nofail sc = true ->
  exists sc', nofail sc' = true /\
    rx sc rem n = if Nat.leb n (length rem) then (None, firstn n rem, skipn n rem, sc')
                  else (Some IoEof, rem, [], sc').
Proof.
  induction sc as [|a sc IH]; intros rem n Hf; simpl in Hf.
  - exists []. split; [reflexivity|]. destruct n; [reflexivity|]. simpl rx. reflexivity.
  - apply andb_true_iff in Hf. destruct Hf as [Ha Hf].
    destruct n as [|n].
    + exists (a :: sc). split; [simpl; rewrite Ha; exact Hf | reflexivity].
    + destruct a as [k| |c]; [| |discriminate].
      * cbn [rx]. set (m := Nat.min (S n) (Nat.min (Pos.to_nat k) (length rem))).
        assert (Hk : 0 < Pos.to_nat k) by apply Pos2Nat.is_pos.
        destruct m as [|m'] eqn:Em.
        -- assert (length rem = 0) by lia. destruct rem; [|discriminate].
           exists sc. split; [exact Hf | reflexivity].
        -- assert (Hm : S m' <= length rem /\ S m' <= S n) by lia.
           destruct (IH (skipn (S m') rem) (S n - S m') Hf) as (sc' & Hf' & E).
           rewrite E. exists sc'. split; [exact Hf'|].
           rewrite skipn_length.
           destruct (Nat.leb_spec (S n - S m') (length rem - S m')) as [Hle|Hlt];
           destruct (Nat.leb_spec (S n) (length rem)) as [Hle'|Hlt']; try lia.
           ++ rewrite firstn_add_app, skipn_skipn_add.
              replace (S m' + (S n - S m')) with (S n) by lia. reflexivity.
           ++ rewrite firstn_skipn. reflexivity.
      * cbn [rx]. apply IH. exact Hf.
Qed.

Lemma rx_gen : forall sc rem n e got rem' sc',
  rx sc rem n = (e, got, rem', sc') ->
  rem = got ++ rem' /\ length got <= n /\ (e = None -> length got = n) /\
  (e = Some IoEof -> rem' = [] /\ length got < n).
Proof.
  induction sc as [|a sc IH]; intros rem n e got rem' sc' H.
  - destruct n; simpl in H.
    + injection H as <- <- <- <-. repeat split; try discriminate; auto.
    + destruct rem as [|b rem]; simpl in H.
      * injection H as <- <- <- <-. repeat split; try discriminate; simpl; lia.
      * destruct (Nat.leb_spec n (length rem)).
        -- injection H as <- <- <- <-. simpl. rewrite firstn_skipn, firstn_length.
           repeat split; try discriminate; lia.
        -- injection H as <- <- <- <-. simpl. rewrite app_nil_r.
           repeat split; try discriminate; simpl; lia.
  - destruct n as [|n]; cbn [rx] in H.
    + injection H as <- <- <- <-. repeat split; try discriminate; auto.
    + destruct a as [k| |c].
      * destruct (Nat.min (S n) (Nat.min (Pos.to_nat k) (length rem))) as [|m'] eqn:Em.
        -- injection H as <- <- <- <-.
           assert (0 < Pos.to_nat k) by apply Pos2Nat.is_pos.
           assert (length rem = 0) by lia. destruct rem; [|discriminate].
           repeat split; try discriminate; simpl; lia.
        -- assert (Hfn : length (firstn (S m') rem) = S m') by (rewrite firstn_length; lia).
           assert (Hfs : firstn (S m') rem ++ skipn (S m') rem = rem) by apply firstn_skipn.
           assert (Hmn : S m' <= S n) by lia.
           set (fm := firstn (S m') rem) in *. set (sm := skipn (S m') rem) in *.
           destruct (rx sc sm (S n - S m')) as [[[e1 got1] rem1] sc1] eqn:E1.
           apply IH in E1. destruct E1 as (Hr & Hl & Hn & He).
           injection H as <- <- <- <-. rewrite app_length, Hfn.
           repeat split.
           ++ rewrite <- app_assoc, <- Hr. symmetry. exact Hfs.
           ++ lia.
           ++ intros E. specialize (Hn E). lia.
           ++ apply He. assumption.
           ++ destruct (He H). lia.
      * apply IH in H. exact H.
      * injection H as <- <- <- <-. repeat split; try discriminate; simpl; lia.
Qed.

Lemma rte_nofail : forall sc rem limit, nofail sc = true ->
  exists sc', nofail sc' = true /\
    rte sc rem limit = (None, takeN limit rem, dropN limit rem, sc').
Proof.
  induction sc as [|a sc IH]; intros rem limit Hf; simpl in Hf.
  - exists []. split; [reflexivity|]. simpl.
    destruct (N.eqb_spec limit 0) as [->|Hl].
    + rewrite takeN_firstn, dropN_skipn. reflexivity.
    + rewrite takeN_firstn, dropN_skipn. unfold clip.
      destruct (N.le_gt_cases limit (lenN rem)) as [H|H].
      * rewrite N.min_l by exact H. reflexivity.
      * rewrite N.min_r by lia.
        assert (EL : N.to_nat (lenN rem) = length rem) by (unfold lenN; lia). rewrite EL.
        rewrite firstn_all, skipn_all.
        rewrite firstn_all2, skipn_all2 by (unfold lenN in H; lia). reflexivity.
  - apply andb_true_iff in Hf. destruct Hf as [Ha Hf]. cbn [rte].
    destruct (N.eqb_spec limit 0) as [->|Hl].
    { exists (a :: sc). split; [simpl; rewrite Ha; exact Hf |].
      rewrite takeN_firstn, dropN_skipn. reflexivity. }
    destruct a as [k| |c]; [| |discriminate].
    + destruct (clip (N.min limit (N.pos k)) rem) as [|m'] eqn:Em.
      * unfold clip in Em. assert (lenN rem = 0%N) by lia.
        apply lenN_0 in H. subst rem. exists sc. split; [exact Hf | reflexivity].
      * unfold clip in Em.
        destruct (IH (skipn (S m') rem) (limit - N.of_nat (S m'))%N Hf) as (sc' & Hf' & E).
        rewrite E. exists sc'. split; [exact Hf'|].
        rewrite !takeN_firstn, !dropN_skipn, firstn_add_app, skipn_skipn_add.
        replace (S m' + N.to_nat (limit - N.of_nat (S m'))) with (N.to_nat limit) by lia.
        reflexivity.
    + apply IH. exact Hf.
Qed.

Lemma rte_gen : forall sc rem limit e got rem' sc',
  rte sc rem limit = (e, got, rem', sc') ->
  rem = got ++ rem' /\ (lenN got <= limit)%N /\
  (e = None -> got = takeN limit rem).
Proof.
  induction sc as [|a sc IH]; intros rem limit e got rem' sc' H; cbn [rte] in H;
  destruct (N.eqb_spec limit 0) as [->|Hl].
  1,3: injection H as <- <- <- <-; rewrite takeN_firstn; repeat split; unfold lenN; simpl; lia.
  - assert (E := rte_nofail [] rem limit eq_refl). destruct E as (sc1 & _ & E).
    cbn [rte] in E. destruct (N.eqb_spec limit 0); [lia|]. rewrite E in H.
    injection H as <- <- <- <-. rewrite takeN_dropN, lenN_takeN. repeat split. lia.
  - destruct a as [k| |c].
    + destruct (clip (N.min limit (N.pos k)) rem) as [|m'] eqn:Em; unfold clip in Em.
      * injection H as <- <- <- <-. assert (E0 : lenN rem = 0%N) by lia.
        apply lenN_0 in E0. subst rem. repeat split. unfold lenN; simpl; lia.
      * unfold lenN in Em.
        assert (Hfn : length (firstn (S m') rem) = S m') by (rewrite firstn_length; lia).
        assert (Hfs : firstn (S m') rem ++ skipn (S m') rem = rem) by apply firstn_skipn.
        assert (Htk : forall q, firstn (S m') rem ++ firstn q (skipn (S m') rem) = firstn (S m' + q) rem)
          by (intros; apply firstn_add_app).
        set (fm := firstn (S m') rem) in *. set (sm := skipn (S m') rem) in *.
        destruct (rte sc sm (limit - N.of_nat (S m'))) as [[[e1 got1] rem1] sc1] eqn:E1.
        apply IH in E1. destruct E1 as (Hr & Hl' & Hn).
        injection H as <- <- <- <-.
        repeat split.
        -- rewrite <- app_assoc, <- Hr. symmetry. exact Hfs.
        -- unfold lenN. rewrite app_length, Hfn. unfold lenN in Hl'. lia.
        -- intros E. rewrite (Hn E), !takeN_firstn, Htk. f_equal. lia.
    + apply IH in H. exact H.
    + injection H as <- <- <- <-. repeat split; unfold lenN; simpl; try lia. discriminate.
Qed.

Lemma r1_gen : forall sc rem n r rem' sc',
  r1 sc rem n = (r, rem', sc') ->
  rem = (match r with inr got => got | inl _ => [] end) ++ rem' /\
  length (match r with inr got => got | inl _ => [] end) <= n.
Proof.
  intros sc rem n r rem' sc' H. unfold r1 in H.
  destruct n as [|n]; [injection H as <- <- <-; split; simpl; auto|].
  destruct sc as [|[k| |c] sc].
  - assert (Hfs := firstn_skipn (S n) rem). assert (Hfl := firstn_le_length (S n) rem).
    assert (Hfn := firstn_length (S n) rem).
    set (fm := firstn (S n) rem) in *. set (sm := skipn (S n) rem) in *.
    injection H as <- <- <-. split; [symmetry; exact Hfs | lia].
  - cbv zeta in H. assert (Hfs := firstn_skipn (Nat.min (S n) (Pos.to_nat k)) rem).
    assert (Hfn := firstn_length (Nat.min (S n) (Pos.to_nat k)) rem).
    set (m := Nat.min (S n) (Pos.to_nat k)) in *.
    set (fm := firstn m rem) in *. set (sm := skipn m rem) in *.
    injection H as <- <- <-. split; [symmetry; exact Hfs | lia].
  - injection H as <- <- <-. split; simpl; [reflexivity|lia].
  - injection H as <- <- <-. split; simpl; [reflexivity|lia].
Qed.

Lemma clip_le : forall n rem, clip n rem <= length rem.
Proof. intros. unfold clip, lenN. lia. Qed.

Lemma clip_le_n : forall n rem, (N.of_nat (clip n rem) <= n)%N.
Proof. intros. unfold clip, lenN. lia. Qed.

Lemma peek_len_le_n : forall n rem, (N.of_nat (peek_len n rem) <= n)%N.
Proof. intros n rem. unfold peek_len. destruct (N.eqb_spec n 0); [lia|]. pose proof (clip_le_n n rem). lia. Qed.

(** ** What an operation can do to a reader: it moves forward by [d] bytes of the true
    stream and by [p] bytes of the cached position. *)
Definition rd_moved (d p : N) (r r' : reader) : Prop :=
  s_rem (r_stream r') = dropN d (s_rem (r_stream r)) /\
  s_off (r_stream r') = (s_off (r_stream r) + d)%N /\
  r_pos r' = (r_pos r + p)%N /\
  r_seekable r' = r_seekable r.

Lemma rd_moved_0 : forall r, rd_moved 0 0 r r.
Proof. intros r. unfold rd_moved. rewrite dropN_0, !N.add_0_r. auto. Qed.

Lemma rd_moved_trans : forall d p d' p' r r' r'',
  rd_moved d p r r' -> rd_moved d' p' r' r'' -> rd_moved (d + d') (p + p') r r''.
Proof.
  intros d p d' p' r r' r'' (E1 & E2 & E3 & E4) (F1 & F2 & F3 & F4). unfold rd_moved.
  rewrite F1, F2, F3, F4, E1, E2, E3, E4, dropN_dropN, !N.add_assoc. auto.
Qed.

(** Summary of every successful (non panicking) reader operation. *)
Lemma rd_exact_spec : forall n r o r',
  rd_exact n r = (o, r') ->
  match o with
  | Some (inr got) =>
      s_rem (r_stream r) = got ++ s_rem (r_stream r') /\ length got = n /\
      rd_moved (N.of_nat n) (N.of_nat n) r r' /\ (r_pos r + N.of_nat n < pow2_64)%N
  | Some (inl e) =>
      exists d, (d <= lenN (s_rem (r_stream r)) /\ d <= N.of_nat n)%N /\ rd_moved d d r r' /\
        (r_pos r + d < pow2_64)%N /\
        (e = IoEof -> s_rem (r_stream r') = [] /\ (lenN (s_rem (r_stream r)) < N.of_nat n)%N)
  | None =>
      (pow2_64 <= r_pos r + lenN (s_rem (r_stream r)))%N
  end.
Proof.
  intros n r o r' H. unfold rd_exact in H.
  destruct (rx (s_sched (r_stream r)) (s_rem (r_stream r)) n) as [[[e got] rem'] sc'] eqn:E.
  apply rx_gen in E. destruct E as (Hr & Hl & Hn & He).
  unfold advance in H.
  destruct (N.ltb_spec (r_pos r + lenN got) pow2_64) as [Hp|Hp]; injection H as <- <-.
  - unfold rd_moved; destruct e as [e|]; cbn -[pow2_64].
    + exists (lenN got). assert (lenN got <= lenN (s_rem (r_stream r)))%N.
      { rewrite Hr, lenN_app. lia. }
      repeat split; try lia.
      * unfold lenN; lia.
      * rewrite Hr, dropN_app_len. reflexivity.
      * apply He. f_equal. assumption.
      * subst e. destruct (He eq_refl) as [-> Hlt]. rewrite app_nil_r in Hr. rewrite Hr.
        unfold lenN. lia.
    + specialize (Hn eq_refl). assert (lenN got = N.of_nat n) by (unfold lenN; lia).
      rewrite <- H. repeat split; auto.
      rewrite Hr, dropN_app_len. reflexivity.
  - cbn -[pow2_64]. rewrite Hr, lenN_app. lia.
Qed.

Lemma rd_to_end_spec : forall limit r o r',
  rd_to_end limit r = (o, r') ->
  match o with
  | Some (e, got) =>
      s_rem (r_stream r) = got ++ s_rem (r_stream r') /\ (lenN got <= limit)%N /\
      rd_moved (lenN got) (lenN got) r r' /\ (r_pos r + lenN got < pow2_64)%N /\
      (e = None -> got = takeN limit (s_rem (r_stream r)))
  | None => (pow2_64 <= r_pos r + lenN (s_rem (r_stream r)))%N
  end.
Proof.
  intros limit r o r' H. unfold rd_to_end in H.
  destruct (rte (s_sched (r_stream r)) (s_rem (r_stream r)) limit) as [[[e got] rem'] sc'] eqn:E.
  apply rte_gen in E. destruct E as (Hr & Hl & Hn).
  unfold advance in H.
  destruct (N.ltb_spec (r_pos r + lenN got) pow2_64) as [Hp|Hp]; injection H as <- <-.
  - unfold rd_moved; cbn -[pow2_64]. repeat split; auto.
    rewrite Hr at 1. rewrite dropN_app_len. reflexivity.
  - cbn -[pow2_64]. rewrite Hr, lenN_app. lia.
Qed.

Lemma rd_once_spec : forall n r o r',
  rd_once n r = (o, r') ->
  match o with
  | Some (inr got) =>
      s_rem (r_stream r) = got ++ s_rem (r_stream r') /\ length got <= n /\
      rd_moved (lenN got) (lenN got) r r' /\ (r_pos r + lenN got < pow2_64)%N
  | Some (inl e) => rd_moved 0 0 r r' /\ s_rem (r_stream r') = s_rem (r_stream r)
  | None => (pow2_64 <= r_pos r + lenN (s_rem (r_stream r)))%N
  end.
Proof.
  intros n r o r' H. unfold rd_once in H.
  destruct (r1 (s_sched (r_stream r)) (s_rem (r_stream r)) n) as [[x rem'] sc'] eqn:E.
  apply r1_gen in E. destruct E as (Hr & Hl). unfold advance in H.
  destruct x as [e|got].
  - cbn [app] in Hr. destruct (N.ltb_spec (r_pos r + 0) pow2_64) as [Hp|Hp]; injection H as <- <-.
    + unfold rd_moved; cbn -[pow2_64]. rewrite <- Hr, dropN_0. repeat split; lia.
    + cbn -[pow2_64]. lia.
  - destruct (N.ltb_spec (r_pos r + lenN got) pow2_64) as [Hp|Hp]; injection H as <- <-.
    + unfold rd_moved; cbn -[pow2_64]. repeat split; auto.
      rewrite Hr, dropN_app_len. reflexivity.
    + cbn -[pow2_64]. rewrite Hr, lenN_app. lia.
Qed.

Lemma rd_peek_spec : forall n r x r', rd_peek n r = (x, r') ->
  rd_moved 0 0 r r' /\ s_rem (r_stream r') = s_rem (r_stream r) /\
  length (match x with inr got => got | inl _ => [] end) <= n /\
  (lenN (match x with inr got => got | inl _ => [] end) <= lenN (s_rem (r_stream r)))%N.
Proof.
  intros n r x r' H. unfold rd_peek in H.
  destruct (r1 (s_sched (r_stream r)) (s_rem (r_stream r)) n) as [[y rem'] sc'] eqn:E.
  apply r1_gen in E. destruct E as (Hr & Hl).
  injection H as <- <-. unfold rd_moved; cbn. rewrite dropN_0, !N.add_0_r. repeat split; auto.
  rewrite Hr, lenN_app. lia.
Qed.

Lemma rd_drop_spec : forall n r o r', rd_drop n r = (o, r') ->
  match o with
  | Some _ => exists d, d = N.of_nat (clip n (s_rem (r_stream r))) /\ (d <= n)%N /\ (d <= lenN (s_rem (r_stream r)))%N /\
               rd_moved d d r r' /\ (r_pos r + d < pow2_64)%N
  | None => (pow2_64 <= r_pos r + lenN (s_rem (r_stream r)))%N
  end.
Proof.
  intros n r o r' H. unfold rd_drop in H. unfold advance in H.
  pose proof (clip_le n (s_rem (r_stream r))) as Hc.
  pose proof (clip_le_n n (s_rem (r_stream r))) as Hc'.
  set (k := clip n (s_rem (r_stream r))) in *.
  destruct (N.ltb_spec (r_pos r + N.of_nat k) pow2_64) as [Hp|Hp]; injection H as <- <-.
  - exists (N.of_nat k). unfold rd_moved, lenN; cbn -[pow2_64].
    rewrite dropN_skipn, Nnat.Nat2N.id. repeat split; lia.
  - unfold lenN. lia.
Qed.

(** Seeking. *)
Lemma seek_move_64 : forall pos part, seek_move pos part = if (part <? 9223372036854775808)%N then advance pos part else None.
Proof.
  intros pos part. unfold seek_move, to_usize. destruct (N.ltb_spec part 9223372036854775808) as [H|H]; [|reflexivity].
  replace (part <? pow2_64)%N with true by (unfold pow2_64; lia). reflexivity.
Qed.

Lemma seek_part_spec : forall p r o r', seek_part p r = (o, r') ->
  match o with
  | Some None => rd_moved p p r r' /\ (r_pos r + p < pow2_64)%N
  | Some (Some e) => rd_moved 0 0 r r' /\ noseekfail (s_seeks (r_stream r)) = false
  | None => (pow2_64 <= r_pos r + p \/ 9223372036854775808 <= p)%N
  end.
Proof.
  intros p r o r' H. unfold seek_part in H.
  assert (G : forall sk, (let s' := mkStream (dropN p (s_rem (r_stream r))) (s_off (r_stream r) + p) (s_sched (r_stream r)) sk in
      match seek_move (r_pos r) p with
      | None => (None, with_stream r s' (r_pos r))
      | Some q => (Some None, with_stream r s' q)
      end) = (o, r') ->
      match o with
      | Some None => rd_moved p p r r' /\ (r_pos r + p < pow2_64)%N
      | Some (Some e) => rd_moved 0 0 r r' /\ noseekfail (s_seeks (r_stream r)) = false
      | None => (pow2_64 <= r_pos r + p \/ 9223372036854775808 <= p)%N
      end).
  { intros sk G. rewrite seek_move_64 in G. unfold advance in G.
    destruct (N.ltb_spec p 9223372036854775808) as [Hq|Hq]; [|injection G as <- <-; right; exact Hq].
    destruct (N.ltb_spec (r_pos r + p) pow2_64) as [Hp|Hp]; injection G as <- <-.
    - unfold rd_moved; cbn -[pow2_64]. auto.
    - left. exact Hp. }
  destruct (s_seeks (r_stream r)) as [|[c|] sk] eqn:E.
  - apply (G []). exact H.
  - injection H as <- <-. split; [|reflexivity].
    unfold rd_moved; cbn. rewrite dropN_0, !N.add_0_r. auto.
  - apply (G sk). exact H.
Qed.

Lemma seek_parts_sum : forall d, fold_right N.add 0%N (seek_parts d) = d.
Proof.
  intros d. unfold seek_parts.
  destruct (N.eqb_spec d 0); [subst; reflexivity|].
  destruct (N.leb_spec d i64_max); [simpl; lia|].
  destruct (N.leb_spec (d - i64_max) i64_max); cbn [fold_right]; lia.
Qed.

(** Every part fits in an [i64]. *)
Lemma seek_parts_fit : forall d, (d < pow2_64)%N -> Forall (fun p => p < 9223372036854775808)%N (seek_parts d).
Proof.
  intros d H. change pow2_64 with 18446744073709551616%N in H. unfold seek_parts, i64_max.
  destruct (N.eqb_spec d 0); [constructor|].
  destruct (N.leb_spec d 9223372036854775807); [repeat constructor; lia|].
  destruct (N.leb_spec (d - 9223372036854775807) 9223372036854775807); repeat constructor; lia.
Qed.

Lemma seek_all_spec : forall ps r o r', seek_all ps r = (o, r') ->
  let d := fold_right N.add 0%N ps in
  match o with
  | Some None => rd_moved d d r r' /\ (ps = [] \/ (r_pos r + d < pow2_64)%N)
  | Some (Some e) => exists d', (d' <= d)%N /\ rd_moved d' d' r r' /\ (d' = 0 \/ r_pos r + d' < pow2_64)%N
  | None => (pow2_64 <= r_pos r + d)%N \/ Exists (fun p => 9223372036854775808 <= p)%N ps
  end.
Proof.
  induction ps as [|p ps IH]; intros r o r' H; simpl in H.
  - injection H as <- <-. simpl. split; [apply rd_moved_0 | left; reflexivity].
  - destruct (seek_part p r) as [[[e|]|] r1] eqn:E; pose proof (seek_part_spec _ _ _ _ E) as S1.
    + injection H as <- <-. destruct S1 as [S1 _]. exists 0%N. cbn -[pow2_64].
      repeat split; try lia; apply S1.
    + destruct S1 as [S1 S1']. specialize (IH r1 o r' H). cbn -[pow2_64] in IH |- *.
      assert (Ep : r_pos r1 = (r_pos r + p)%N) by apply S1.
      destruct o as [[e|]|].
      * destruct IH as (d' & Hd & M' & Hp). exists (p + d')%N. repeat split; try lia.
        all: apply (rd_moved_trans _ _ _ _ _ _ _ S1 M').
      * destruct IH as [M' Hp]. split; [apply (rd_moved_trans _ _ _ _ _ _ _ S1 M')|].
        right. rewrite Ep in Hp. destruct Hp as [->|Hp]; cbn [fold_right]; lia.
      * destruct IH as [IH|IH]; [left; rewrite Ep in IH; lia|right; right; exact IH].
    + injection H as <- <-. cbn -[pow2_64] in S1 |- *. destruct S1 as [S1|S1]; [left; lia|right; left; exact S1].
Qed.

Lemma skip_to_spec : forall pos r o r', skip_to pos r = (o, r') ->
  match o with
  | None => r' = r /\ (pos < r_pos r)%N \/ (pow2_64 <= pos)%N
  | Some e =>
      (r_pos r <= pos)%N /\
      if r_seekable r then
        match e with
        | None => rd_moved (pos - r_pos r) (pos - r_pos r) r r'
        | Some _ => exists d, (d <= pos - r_pos r)%N /\ rd_moved d d r r'
        end
      else exists d, (d <= pos - r_pos r)%N /\ (d <= lenN (s_rem (r_stream r)))%N /\ rd_moved d 0 r r'
  end.
Proof.
  intros pos r o r' H. unfold skip_to in H.
  destruct (N.ltb_spec pos (r_pos r)) as [Hb|Hb].
  - injection H as <- <-. left. auto.
  - unfold skip_distance in H. destruct (r_seekable r) eqn:Es.
    + unfold skip_distance_seekable in H. apply seek_all_spec in H.
      rewrite seek_parts_sum in H. destruct o as [[e|]|].
      * split; [exact Hb|]. destruct H as (d & Hd & M' & _). exists d. split; assumption.
      * split; [exact Hb|]. apply H.
      * right. destruct H as [H|H]; [lia|]. destruct (N.le_gt_cases pow2_64 pos) as [L|L]; [exact L|]. exfalso.
        pose proof (seek_parts_fit (pos - r_pos r) ltac:(lia)) as F. rewrite Forall_forall in F. rewrite Exists_exists in H.
        destruct H as (q & I & Q). apply F in I. lia.
    + unfold skip_distance_plain in H.
      destruct (rte (s_sched (r_stream r)) (s_rem (r_stream r)) (pos - r_pos r)) as [[[e got] rem'] sc'] eqn:E.
      apply rte_gen in E. destruct E as (Hr & Hl & Hn). injection H as <- <-.
      split; [exact Hb|]. exists (lenN got). split; [exact Hl|]. split.
      * rewrite Hr, lenN_app. lia.
      * unfold rd_moved; cbn. rewrite Hr, dropN_app_len, N.add_0_r. auto.
Qed.
