(** UTF-8: the valid byte strings are exactly the encodings of sequences of scalar values. *)
Require Import Coq.Lists.List Coq.NArith.NArith Coq.ZArith.ZArith Coq.Bool.Bool Coq.micromega.Lia.
Require Import ZifyBool ZifyNat ZifyN.
Require Import Verif.Base Verif.BaseFacts Verif.Utf8.
Import ListNotations.
Ltac Zify.zify_post_hook ::= Z.div_mod_to_equations.

Lemma encode_char_valid : forall c rest, is_scalar c = true -> utf8_valid (encode_char c ++ rest) = utf8_valid rest.
Proof.
  intros c rest H. unfold is_scalar in H. unfold encode_char.
  destruct (c <? 128)%N eqn:E1.
  { cbn [app utf8_valid]. rewrite bN_Nb. destruct (c mod 256 <? 128)%N eqn:E; [reflexivity|lia]. }
  destruct (c <? 2048)%N eqn:E2.
  { cbn [app utf8_valid]. unfold is_cont, in_range. rewrite !bN_Nb.
    match goal with |- (if ?a then _ else if ?b then ?x && _ else _) = _ =>
      replace a with false by lia; replace b with true by lia; replace x with true by lia end. reflexivity. }
  destruct (c <? 65536)%N eqn:E3.
  { cbn [app utf8_valid]. unfold is_cont, in_range. rewrite !bN_Nb.
    match goal with |- (if ?a then _ else if ?b then _ else if ?d then ?x && ?y && _ else _) = _ =>
      replace a with false by lia; replace b with false by lia; replace d with true by lia; replace y with true by lia end.
    match goal with |- ?x && _ && _ = _ => replace x with true; [reflexivity|] end.
    symmetry. match goal with |- (if ?a then _ else _) = _ => destruct a eqn:F1 end; [lia|].
    match goal with |- (if ?a then _ else _) = _ => destruct a eqn:F2 end; lia. }
  cbn [app utf8_valid]. unfold is_cont, in_range. rewrite !bN_Nb.
  match goal with |- (if ?a then _ else if ?b then _ else if ?d then _ else if ?f then ?x && ?y && ?z && _ else _) = _ =>
    replace a with false by lia; replace b with false by lia; replace d with false by lia; replace f with true by lia;
    replace y with true by lia; replace z with true by lia end.
  match goal with |- ?x && _ && _ && _ = _ => replace x with true; [reflexivity|] end.
  symmetry. match goal with |- (if ?a then _ else _) = _ => destruct a eqn:F1 end; [lia|].
  match goal with |- (if ?a then _ else _) = _ => destruct a eqn:F2 end; lia.
Qed.

Lemma encode_chars_valid : forall cs, Forall (fun c => is_scalar c = true) cs -> utf8_valid (encode_chars cs) = true.
Proof.
  induction 1 as [|c cs H _ IH]; [reflexivity|]. change (encode_chars (c :: cs)) with (encode_char c ++ encode_chars cs).
  rewrite encode_char_valid by exact H. exact IH.
Qed.

Lemma Nb_of : forall n b, (n = bN b)%N -> Nb n = b.
Proof. intros n b ->. apply Nb_bN. Qed.

(** Every valid string is an encoding. *)
Lemma valid_encoding : forall l, utf8_valid l = true -> exists cs, Forall (fun c => is_scalar c = true) cs /\ l = encode_chars cs.
Proof.
  intros l. remember (length l) as n eqn:En. assert (Hn : (length l <= n)%nat) by lia. clear En.
  revert l Hn. induction n as [|n IH]; intros l Hn H.
  { destruct l; [|cbn in Hn; lia]. exists []. split; [constructor|reflexivity]. }
  destruct l as [|a t]; [exists []; split; [constructor|reflexivity]|].
  cbn [utf8_valid] in H. cbn [length] in Hn. pose proof (bN_lt a) as La.
  assert (K : forall c e t', encode_char c = e -> is_scalar c = true -> a :: t = e ++ t' -> utf8_valid t' = true -> (length t' <= n)%nat ->
    exists cs, Forall (fun c => is_scalar c = true) cs /\ a :: t = encode_chars cs).
  { intros c e t' Ee Hc E V L. destruct (IH t' L V) as (cs & F & ->). exists (c :: cs). split; [constructor; auto|].
    rewrite E, <- Ee. reflexivity. }
  destruct (bN a <? 128)%N eqn:E1.
  { apply (K (bN a) [a] t); auto; [|unfold is_scalar; lia|lia]. unfold encode_char. rewrite E1, Nb_bN. reflexivity. }
  destruct (in_range 194 223 a) eqn:E2.
  { destruct t as [|b t1]; [discriminate|]. apply andb_prop in H. destruct H as [Hb V]. cbn [length] in Hn.
    unfold is_cont, in_range in *. set (c := ((bN a - 192) * 64 + (bN b - 128))%N).
    apply (K c [a; b] t1); auto; [|unfold is_scalar, c; lia|lia].
    unfold encode_char. replace (c <? 128)%N with false by (unfold c; lia). replace (c <? 2048)%N with true by (unfold c; lia).
    f_equal; [|f_equal]; apply Nb_of; unfold c; lia. }
  destruct (in_range 224 239 a) eqn:E3.
  { destruct t as [|b [|d t2]]; try discriminate. apply andb_prop in H. destruct H as [H V]. apply andb_prop in H. destruct H as [Hb Hd]. cbn [length] in Hn.
    unfold is_cont, in_range in *. set (c := ((bN a - 224) * 4096 + (bN b - 128) * 64 + (bN d - 128))%N).
    assert (R : (128 <= bN b <= 191 /\ (bN a = 224 -> 160 <= bN b) /\ (bN a = 237 -> bN b <= 159))%N).
    { destruct (bN a =? 224)%N eqn:F1; [lia|]. destruct (bN a =? 237)%N eqn:F2; lia. }
    apply (K c [a; b; d] t2); auto; [|unfold is_scalar, c; lia|lia].
    unfold encode_char. replace (c <? 128)%N with false by (unfold c; lia). replace (c <? 2048)%N with false by (unfold c; lia).
    replace (c <? 65536)%N with true by (unfold c; lia).
    f_equal; [|f_equal; [|f_equal]]; apply Nb_of; unfold c; lia. }
  destruct (in_range 240 244 a) eqn:E4; [|discriminate].
  destruct t as [|b [|d [|e t3]]]; try discriminate. apply andb_prop in H. destruct H as [H V]. apply andb_prop in H. destruct H as [H He].
  apply andb_prop in H. destruct H as [Hb Hd]. cbn [length] in Hn.
  unfold is_cont, in_range in *. set (c := ((bN a - 240) * 262144 + (bN b - 128) * 4096 + (bN d - 128) * 64 + (bN e - 128))%N).
  assert (R : (128 <= bN b <= 191 /\ (bN a = 240 -> 144 <= bN b) /\ (bN a = 244 -> bN b <= 143))%N).
  { destruct (bN a =? 240)%N eqn:F1; [lia|]. destruct (bN a =? 244)%N eqn:F2; lia. }
  apply (K c [a; b; d; e] t3); auto; [|unfold is_scalar, c; lia|lia].
  unfold encode_char. replace (c <? 128)%N with false by (unfold c; lia). replace (c <? 2048)%N with false by (unfold c; lia).
  replace (c <? 65536)%N with false by (unfold c; lia).
  f_equal; [|f_equal; [|f_equal; [|f_equal]]]; apply Nb_of; unfold c; lia.
Qed.

Theorem utf8_valid_iff : forall l, utf8_valid l = true <-> exists cs, Forall (fun c => is_scalar c = true) cs /\ l = encode_chars cs.
Proof. intros l. split; [apply valid_encoding|]. intros (cs & F & ->). apply encode_chars_valid. exact F. Qed.
