(** What is assumed of the zlib implementation, and a codec that satisfies it.

    The theorems that involve compressed arrays take these contracts as hypotheses; the
    stored codec below shows that they can be met and is used in the examples. *)
Require Import Coq.Lists.List Coq.NArith.NArith Coq.ZArith.ZArith Coq.Bool.Bool Coq.micromega.Lia.
Require Import ZifyBool ZifyNat ZifyN.
Require Import Coq.Init.Byte.
Require Import Verif.Base Verif.BaseFacts Verif.Types Verif.Parser.
Import ListNotations.
Ltac Zify.zify_post_hook ::= Z.div_mod_to_equations.

(** A decoder's program on a stream with content [c] that delivers all its bytes: the result and
    the bytes left. *)
Fixpoint zrun {A} (p : zprog A) (c : list byte) : A * list byte :=
  match p with
  | ZRet a => (a, c)
  | ZExact n k => if (n <=? length c)%nat then zrun (k (inr (firstn n c))) (skipn n c) else zrun (k (inl IoEof)) []
  | ZTake n k => zrun (k (None, takeN n c)) (dropN n c)
  end.

(** Successive reads of the given sizes from a decoder. *)
Fixpoint zreads {env : Env} (ns : list nat) (st : zst) (c : list byte) : list (ioerr + list byte) * zst * list byte :=
  match ns with
  | [] => ([], st, c)
  | n :: t => let '((r, st1), c1) := zrun (z_read st n) c in
              let '((rs, st2), c2) := zreads t st1 c1 in (r :: rs, st2, c2)
  end.

Fixpoint cut_at (ns : list nat) (d : list byte) : list (list byte) :=
  match ns with [] => [] | n :: t => firstn n d :: cut_at t (skipn n d) end.

(** Decompressing what was compressed gives the data back, in pieces of any sizes, and needs no
    byte after the compressed form. *)
Definition zlib_roundtrip (env : Env) : Prop :=
  forall l rest, exists st used, zrun z_open (z_enc l ++ rest) = (inr st, dropN used (z_enc l ++ rest)) /\
    (used <= lenN (z_enc l))%N /\
    forall ns, (list_sum ns <= length (concat l))%nat ->
      exists st' used', zreads ns st (dropN used (z_enc l ++ rest)) =
                        (map inr (cut_at ns (concat l)), st', dropN (used + used') (z_enc l ++ rest)) /\
        (used + used' <= lenN (z_enc l))%N.

(** ** A stored codec: two marker bytes, an 8-byte length, the data. *)
Definition st_hdr : list byte := [x78; x01].
Definition st_enc (d : list byte) : list byte := st_hdr ++ le_enc 8 (lenN d) ++ d.
Definition st_open : zprog (ioerr + bool) :=
  ZExact 2 (fun r => ZRet match r with
    | inr [a; b] => if (beqb a x78 && beqb b x01)%bool then inr false else inl IoZlib
    | inr _ => inl IoZlib
    | inl e => inl e
    end).
(** The state says whether the length has been read.  The data itself is read as a stored block. *)
Definition st_data (n : nat) : zprog ((ioerr + list byte) * bool) :=
  ZTake (N.of_nat n) (fun r => ZRet (match r with
    | (Some e, _) => inl e
    | (None, bs) => if Nat.eqb (length bs) n then inr bs else inl IoEof
    end, true)).
Definition st_read (started : bool) (n : nat) : zprog ((ioerr + list byte) * bool) :=
  if started then st_data n
  else ZExact 8 (fun r => match r with inl e => ZRet (inl e, true) | inr _ => st_data n end).

Definition stored_env (ovf : bool) : Env :=
  {| zst := bool; z_open := st_open; z_read := st_read; 
     z_feed := fun _ => [st_hdr]; z_fin := fun l => [le_enc 8 (lenN (concat l)); concat l]; ovf_checks := ovf |}.

Lemma st_enc_len : forall d, lenN (st_enc d) = (10 + lenN d)%N.
Proof. intros d. unfold st_enc. rewrite !lenN_app, le_enc_lenN. unfold lenN, st_hdr. cbn [length]. lia. Qed.

Lemma skipn_plus : forall A (l : list A) n m, skipn (n + m) l = skipn m (skipn n l).
Proof. intros A l n. revert l. induction n as [|n IH]; intros l m; [reflexivity|]. destruct l; [cbn; rewrite skipn_nil; reflexivity|apply IH]. Qed.

Lemma st_data_run : forall n c, (n <= length c)%nat -> zrun (st_data n) c = ((inr (firstn n c), true), skipn n c).
Proof.
  intros n c H. cbn [zrun st_data]. rewrite takeN_firstn, dropN_skipn, Nnat.Nat2N.id.
  rewrite firstn_length_le by exact H. rewrite Nat.eqb_refl. reflexivity.
Qed.

Lemma st_reads_body : forall ovf ns d rest, (list_sum ns <= length d)%nat ->
  zreads (env := stored_env ovf) ns true (d ++ rest) = (map inr (cut_at ns d), true, skipn (list_sum ns) (d ++ rest)).
Proof.
  intros ovf ns. induction ns as [|n ns IH]; intros d rest H; [reflexivity|]. change (list_sum (n :: ns)) with (n + list_sum ns)%nat in *.
  assert (L : (n <= length d)%nat) by lia.
  assert (E : zrun (z_read (Env := stored_env ovf) true n) (d ++ rest) = ((inr (firstn n d), true), skipn n d ++ rest)).
  { change (z_read (Env := stored_env ovf) true n) with (st_data n). rewrite st_data_run by (rewrite app_length; lia).
    rewrite firstn_app, skipn_app. replace (n - length d)%nat with 0%nat by lia. cbn [firstn skipn]. rewrite app_nil_r. reflexivity. }
  cbn [zreads]. rewrite E. rewrite IH by (rewrite skipn_length; lia). cbn [cut_at map]. f_equal.
  rewrite skipn_plus. f_equal. rewrite skipn_app. replace (n - length d)%nat with 0%nat by lia. reflexivity.
Qed.

Lemma st_enc_eq : forall ovf l, z_enc (env := stored_env ovf) l = st_enc (concat l).
Proof. intros ovf l. unfold z_enc, st_enc. cbn [z_feed z_fin stored_env concat]. rewrite !app_nil_r. reflexivity. Qed.

Lemma stored_roundtrip : forall ovf, zlib_roundtrip (stored_env ovf).
Proof.
  intros ovf l rest. rewrite st_enc_eq. set (d := concat l). exists false, 2%N. split.
  - change (z_open (Env := stored_env ovf)) with st_open.
    unfold st_enc, st_hdr. rewrite dropN_skipn. reflexivity.
  - rewrite st_enc_len. split; [lia|].
    intros ns H. destruct ns as [|n ns].
    { exists false, 0%N. split; [reflexivity|lia]. }
    exists true, (8 + N.of_nat (list_sum (n :: ns)))%N. split; [|unfold lenN; lia].
    assert (E : dropN 2 (st_enc d ++ rest) = le_enc 8 (lenN d) ++ d ++ rest).
    { rewrite dropN_skipn. unfold st_enc, st_hdr. rewrite <- !app_assoc. reflexivity. }
    assert (L8 : length (le_enc 8 (lenN d)) = 8%nat) by apply le_enc_length.
    assert (E1 : zreads (env := stored_env ovf) (n :: ns) false (le_enc 8 (lenN d) ++ d ++ rest) = zreads (env := stored_env ovf) (n :: ns) true (d ++ rest)).
    { cbn [zreads]. change (z_read (Env := stored_env ovf) false n) with (st_read false n).
      change (z_read (Env := stored_env ovf) true n) with (st_data n). unfold st_read. cbn [zrun].
      rewrite app_length, L8. replace (8 <=? 8 + length (d ++ rest))%nat with true by (symmetry; apply Nat.leb_le; lia).
      rewrite skipn_app, L8, Nat.sub_diag. rewrite (skipn_all2 (n := 8)) by lia. reflexivity. }
    rewrite E. rewrite E1. rewrite st_reads_body by exact H. f_equal.
    replace (2 + (8 + N.of_nat (list_sum (n :: ns))))%N with (2 + 8 + N.of_nat (list_sum (n :: ns)))%N by lia.
    rewrite <- !dropN_dropN, E. rewrite (dropN_skipn _ (dropN 8 _)), Nnat.Nat2N.id. f_equal.
    replace 8%N with (lenN (le_enc 8 (lenN d))) by (rewrite le_enc_lenN; reflexivity). rewrite dropN_app_len. reflexivity.
Qed.
