(** C47: versions. *)
Require Import Coq.NArith.NArith Coq.ZArith.ZArith Coq.Bool.Bool Coq.micromega.Lia Coq.Lists.List.
Require Import ZifyBool ZifyNat ZifyN.
Require Import Verif.Base Verif.Types Verif.Io Verif.Parser Verif.Writer Verif.PropsWriter.
Import ListNotations.
Ltac Zify.zify_post_hook ::= Z.div_mod_to_equations.
Local Open Scope N_scope.

(** The major version is everything above the last three decimal digits, the minor version the
    third last digit: the only numbers with [raw = 1000 major + 100 minor + r], [minor < 10] and
    [r < 100]. *)
Theorem C47_digits : forall raw M m,
  (M = ver_major raw /\ m = ver_minor raw) <-> (m < 10 /\ exists r, r < 100 /\ raw = 1000 * M + 100 * m + r).
Proof.
  intros raw M m. unfold ver_major, ver_minor. split.
  - intros [-> ->]. split; [lia|]. exists (raw mod 100). split; lia.
  - intros (H & r & Hr & ->). lia.
Qed.

(** Versions are ordered like the pair of their major and minor versions. *)
Theorem C47_order : forall a b, a <= b ->
  ver_major a < ver_major b \/ (ver_major a = ver_major b /\ ver_minor a <= ver_minor b).
Proof. intros a b H. unfold ver_major, ver_minor. lia. Qed.

(** Parsers and writers exist for the same versions: those with major version 7. *)
Theorem C47_reader_and_writer_agree : forall (env : Env) k s pos seekable ver,
  (ver_major ver = 7 <-> 7000 <= ver <= 7999) /\
  ((exists p, parser_create ver s pos seekable = Ok p) <-> ver_major ver = 7) /\
  (new_writer k ver = Err (WUnsupportedFbxVersion ver) <-> ver_major ver <> 7).
Proof.
  intros env k s pos seekable ver. split; [unfold ver_major; lia|]. split.
  - unfold parser_create, ver_supported, ver_major. destruct ((7000 <=? ver) && (ver <=? 7999))%bool eqn:E.
    + split; [intros _; lia|eexists; reflexivity].
    + split; [intros [p H]; discriminate|]. lia.
  - pose proof (C02_writer_versions k ver) as K. destruct (new_writer k ver) as [w|e|].
    + split; [discriminate|]. unfold ver_major. lia.
    + destruct K as [[K [io ->]]|[K ->]].
      * split; [discriminate|]. unfold ver_major. lia.
      * split; [unfold ver_major; lia|reflexivity].
    + contradiction.
Qed.

Example versions : ver_major 7450 = 7 /\ ver_minor 7450 = 4 /\ ver_major 12345 = 12 /\ ver_minor 12345 = 3 /\
  (exists p, parser_create 7999 (mkStream [] 0 [] []) 27 true = Ok p) /\
  (forall p, parser_create 8000 (mkStream [] 0 [] []) 27 true <> Ok p).
Proof. repeat split; try reflexivity; [eexists; reflexivity|discriminate]. Qed.

Print Assumptions C47_digits.
Print Assumptions C47_order.
Print Assumptions C47_reader_and_writer_agree.
