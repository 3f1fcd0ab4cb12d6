(** C90: how long a file is, and which documents fit a version. *)
Require Import Coq.Lists.List Coq.NArith.NArith Coq.ZArith.ZArith Coq.Bool.Bool Coq.micromega.Lia.
Require Import ZifyBool ZifyNat ZifyN.
Require Import Verif.Base Verif.BaseFacts Verif.Utf8 Verif.Types Verif.Zlib Verif.Io Verif.IoFacts Verif.Parser Verif.Spec Verif.SpecFacts Verif.Writer Verif.WriterSpec Verif.WriterFacts Verif.WriterTotal Verif.PropsWriter
  Verif.WriterNodes Verif.FooterFacts Verif.PropsSink Verif.PropsRound Verif.PropsRewrite Verif.Samples.
Import ListNotations.
Local Open Scope list_scope.

(** ** Specification *)
Section Spec.
Context {env : Env}.

(** The bytes that a stored attribute takes: a letter, then the value; strings and binary data
    have a length, arrays a count, an encoding and a length before them. *)
Definition attr_bytes (a : attr) : N :=
  match at_val a with
  | VBool _ => 2
  | VI16 _ => 3
  | VI32 _ | VF32 _ => 5
  | VI64 _ | VF64 _ => 9
  | VString s | VBinary s => 5 + lenN s
  | v => 13 + match array_raw v with
              | Some raw =>
                  if at_zip a then lenN (z_enc raw)
                  else match v with
                       | VArrBool l => lenN l
                       | VArrI32 l => 4 * lenN l
                       | VArrI64 l => 8 * lenN l
                       | VArrF32 l => 4 * lenN l
                       | VArrF64 l => 8 * lenN l
                       | _ => 0
                       end
              | None => 0
              end
  end%N.

Definition sum (l : list N) : N := fold_right N.add 0%N l.

(** The names and attributes of a document, whatever the version. *)
Fixpoint content (n : node) : N :=
  match n with Node name ats kids => lenN name + sum (map attr_bytes ats) + sum (map content kids) end%N.

(** The headers and end markers of a document: every node has a header, and an end marker if it
    has children or no attributes. *)
Fixpoint records (n : node) : N :=
  match n with
  | Node _ ats kids => 1 + (match ats, kids with _ :: _, [] => 0 | _, _ => 1 end) + sum (map records kids)
  end%N.

(** Headers and end markers take 13 bytes before version 7500, 25 from then on. *)
Definition record_bytes (ver : N) : N := if (ver <? 7500)%N then 13%N else 25%N.

(** The 27 bytes of the file header, the nodes. *)
Definition body_bytes (ver : N) (ns : list node) : N :=
  (27 + sum (map content ns) + record_bytes ver * sum (map records ns))%N.
End Spec.

(** ** Proofs *)
Section WithEnv.
Context {env : Env}.

Lemma attr_bytes_len : forall a, lenN (enc_attr a) = attr_bytes a.
Proof.
  intros [v z]. unfold enc_attr, attr_bytes. cbn [at_val at_zip].
  destruct v; cbn [array_raw]; rewrite ?lenN_cons, ?lenN_app, ?i_enc_lenN, ?le_enc_lenN; try reflexivity; try (cbn [N.of_nat]; lia);
    unfold array_payload; destruct z; rewrite ?(concat_bytes _ _ 1), ?(concat_bytes _ _ 4), ?(concat_bytes _ _ 8) by (intros; rewrite ?i_enc_lenN, ?le_enc_lenN; reflexivity); lia.
Qed.
Lemma attrs_bytes_len : forall l, lenN (enc_attrs l) = sum (map attr_bytes l).
Proof. induction l as [|a l IH]; [reflexivity|]. unfold enc_attrs in *. cbn [flat_map map sum fold_right]. rewrite lenN_app, IH, attr_bytes_len. reflexivity. Qed.
Lemma record_header : forall ver, header_size ver = record_bytes ver.
Proof. intros ver. unfold header_size, width, record_bytes. destruct (ver <? 7500)%N; reflexivity. Qed.

Lemma node_bytes : forall ver n, node_size ver n = (content n + record_bytes ver * records n)%N.
Proof.
  intros ver n. induction n as [name ats kids IH] using node_ind2. rewrite node_size_eq, attrs_bytes_len. unfold marker_size. rewrite record_header. cbn [content records].
  assert (K : nodes_size ver kids = (sum (map content kids) + record_bytes ver * sum (map records kids))%N).
  { induction IH as [|k l H _ I]; [cbn; lia|]. rewrite nodes_size_cons, H, I. cbn [map sum fold_right]. fold (sum (map content l)) (sum (map records l)). lia. }
  rewrite K. destruct ats, kids; cbn [needs_marker]; lia.
Qed.
Lemma nodes_bytes : forall ver ns, (27 + nodes_size ver ns)%N = body_bytes ver ns.
Proof.
  intros ver ns. unfold body_bytes. assert (K : nodes_size ver ns = (sum (map content ns) + record_bytes ver * sum (map records ns))%N).
  { induction ns as [|k l I]; [cbn; lia|]. rewrite nodes_size_cons, node_bytes, I. cbn [map sum fold_right]. fold (sum (map content l)) (sum (map records l)). lia. }
  lia.
Qed.

(** ** The theorems *)

(** The writer ends behind the nodes, one more end marker and the footer: 16 bytes, the padding
    (as forced, or up to the next multiple of 16) and 144 bytes.  The file is as long as that, or
    as long as it was if it was longer. *)
Theorem C90_size : forall k ver l f k', finished k ver l f k' ->
  let p := (body_bytes ver (nodes_of l) + record_bytes ver + 16)%N in
  let pad := match wf_padding f with PadForced b => bN b | PadDefault => ((16 - p mod 16) mod 16)%N end in
  k_pos k' = (p + pad + 144)%N /\ lenN (k_data k') = N.max (k_pos k') (lenN (k_data k)).
Proof.
  intros k ver l f k' [HT HL (s & fl & s' & HW & HF)] p pad. destruct (C27_finished _ _ _ _ _ _ _ _ HW HF) as (_ & D & P). cbv zeta in D, P. fold (nodes_of l) in D, P.
  split; [|rewrite D, lenN_app, lenN_dropN, <- P; lia]. rewrite P. destruct HT as (T1 & T2 & T3). unfold enc_finished, enc_wfooter.
  rewrite !lenN_app, enc_nodes_len', end_marker_len, !le_enc_lenN.
  assert (F : forall o d n, length d = n -> match o with Some l => length l = n | None => True end -> lenN (footer_field o d) = N.of_nat n) by (intros [x|] d n A B; unfold footer_field, lenN; congruence).
  rewrite !(F _ spec_default1 16%nat), (F _ (zeros 4) 4%nat), (F _ spec_trailer 16%nat); auto.
  assert (Z : forall n, lenN (zeros n) = N.of_nat n) by (intros n; unfold zeros, lenN; rewrite repeat_length; reflexivity). rewrite !Z, N2Nat.id.
  change (lenN spec_magic) with 23%N. rewrite nodes_bytes, record_header. change (N.of_nat 16) with 16%N. fold p.
  assert (E : footer_pad f p = pad) by (unfold footer_pad, pad; destruct (wf_padding f); [unfold spec_pad|]; reflexivity). rewrite E.
  pose proof (nodes_bytes ver (nodes_of l)). unfold p. lia.
Qed.

(** With the default padding, the length of what is written is a multiple of 16. *)
Theorem C90_multiple_of_16 : forall k ver l f k', finished k ver l f k' -> wf_padding f = PadDefault -> (k_pos k' mod 16 = 0)%N.
Proof.
  intros k ver l f k' F E. destruct (C90_size _ _ _ _ _ F) as [-> _]. rewrite E. set (p := (_ + 16)%N). lia.
Qed.

(** The same document, in a version before 7500 and in one from then on: the second file is
    longer by 12 bytes for each node and end marker, up to the padding. *)
Theorem C90_versions : forall k k' ver ver' l l' f f' k1 k2, finished k ver l f k1 -> finished k' ver' l' f' k2 ->
  nodes_of l = nodes_of l' -> (ver < 7500 <= ver')%N ->
  let more := (12 * (sum (map records (nodes_of l)) + 1))%N in
  (wf_padding f = PadDefault /\ wf_padding f' = PadDefault -> k_pos k1 + more < k_pos k2 + 16 /\ k_pos k2 < k_pos k1 + more + 16)%N /\
  (forall b, wf_padding f = PadForced b /\ wf_padding f' = PadForced b -> k_pos k2 = k_pos k1 + more)%N.
Proof.
  intros k k' ver ver' l l' f f' k1 k2 F F' E V more. destruct (C90_size _ _ _ _ _ F) as [-> _], (C90_size _ _ _ _ _ F') as [-> _]. rewrite <- E. unfold more, body_bytes, record_bytes.
  destruct (N.ltb_spec ver 7500); [|lia]. destruct (N.ltb_spec ver' 7500); [lia|].
  set (c := sum (map content _)). set (r := sum (map records _)). split.
  - intros [-> ->]. lia.
  - intros b [-> ->]. lia.
Qed.

(** Which documents fit a version before 7500: those whose nodes end before 4 GiB.  They can be
    written to every sink that does not fail; others to none. *)
Theorem C90_fits : forall ver ns f, (7000 <= ver < 7500)%N -> Forall node_ok ns -> Forall zips_ok ns -> wfooter_typed f ->
  ((body_bytes ver ns < 2 ^ 32)%N ->
     forall k, wgood k -> k_flush k = None -> (lenN (k_data k) < pow2_63)%N -> exists l k', nodes_of l = ns /\ finished k ver l f k') /\
  ((2 ^ 32 <= body_bytes ver ns)%N -> forall k l k', nodes_of l = ns -> ~ finished k ver l f k').
Proof.
  intros ver ns f V NO ZO HT.
  assert (W : width ver = 4%nat) by (unfold width; destruct (N.ltb_spec ver 7500); [reflexivity|lia]). split.
  - intros B k G HF LD. rewrite <- nodes_bytes in B.
    assert (D : doc_ok ver ns).
    { assert (U : forall n, (n < 2 ^ 32)%N -> u_ok (width ver) n) by (intros n Hn; rewrite W; exact Hn).
      split; [lia|]. split; [exact NO|]. split; [apply sizes_counts, U; lia|]. split; [apply U; exact B|]. change pow2_63 with (2 ^ 63)%N. lia. }
    destruct (C44_every_document_can_be_written k ver ns f G HF LD D ZO HT) as (k' & F & E); [|eauto].
    pose proof (finished_len ver ns f HT). change pow2_63 with (2 ^ 63)%N. lia.
  - intros B k l k' E F. destruct (finished_bytes _ _ _ _ _ F) as ((_ & _ & _ & U & _) & _). rewrite E, nodes_bytes in U. unfold u_ok in U. rewrite W in U. change (2 ^ (8 * N.of_nat 4))%N with (2 ^ 32)%N in U. lia.
Qed.
End WithEnv.

(** ** Concrete cases *)
Module LengthCases.
Import PropsWriter.Cases RoundCases.
Definition empty_sink : sink := mkSink [] 0 [] [] None.
Definition end_state (ver : N) : wstate :=
  match new_writer empty_sink ver with Ok s => snd (run_wcalls (env := release) calls0 s) | _ => mkW k0 0 [] end.
Definition file (ver : N) : sink := match finalize false default_footer (end_state ver) with (Ok k, _) => k | _ => k0 end.
Lemma file_finished : forall ver, ver = 7400%N \/ ver = 7500%N -> finished (env := release) empty_sink ver calls0 default_footer (file ver).
Proof.
  intros ver H. constructor; [repeat split|destruct H as [->| ->]; vm_compute; reflexivity|].
  exists (end_state ver), false, (snd (finalize false default_footer (end_state ver))). split; [|destruct H as [->| ->]; vm_compute; reflexivity].
  constructor.
  - repeat constructor; vm_compute; try reflexivity; try (split; intro; discriminate). all: discriminate.
  - repeat constructor.
  - destruct H as [->| ->]; (eexists; eexists; split; [vm_compute; reflexivity|]; split; [vm_compute; reflexivity|]; repeat (constructor; auto)).
Qed.
(** Two files of the sample document: four nodes, two end markers. *)
Example length_ex : finished (env := release) empty_sink 7400 calls0 default_footer (file 7400) /\ finished (env := release) empty_sink 7500 calls0 default_footer (file 7500) /\
  wf_padding default_footer = PadDefault /\
  sum (map records (nodes_of calls0)) = 6%N /\ k_pos (file 7400) = 352%N /\ k_pos (file 7500) = 448%N.
Proof. split; [apply file_finished; auto|]. split; [apply file_finished; auto|]. vm_compute. auto. Qed.
(** A document that fits, and one of two binary attributes of 2 GiB that does not. *)
Definition big_doc (big : list byte) : list node := [Node s_a [mkAttr (VBinary big) false; mkAttr (VBinary big) false] []].
Example fits_ex : (Forall (node_ok (env := release)) (nodes_of calls0) /\ Forall zips_ok (nodes_of calls0) /\ (body_bytes (env := release) 7400 (nodes_of calls0) < 2 ^ 32)%N) /\
  exists big, Forall (node_ok (env := release)) (big_doc big) /\ Forall zips_ok (big_doc big) /\ (2 ^ 32 <= body_bytes (env := release) 7400 (big_doc big))%N.
Proof.
  split.
  - destruct (finished_bytes (env := release) _ _ _ _ _ (file_finished 7400 (or_introl eq_refl))) as ((_ & N & _) & _). split; [exact N|]. split; [|vm_compute; reflexivity].
    repeat constructor.
  - destruct (SinkCases.long_list 2147483648) as [big L]. exists big. split; [|split].
    + constructor; [|constructor]. apply node_ok_eq. split; [vm_compute; reflexivity|]. split; [vm_compute; reflexivity|]. split; [|constructor].
      repeat constructor; unfold attr_fits; cbn [at_val]; rewrite L; vm_compute; reflexivity.
    + repeat constructor.
    + unfold body_bytes, big_doc. cbn [map content records sum fold_right attr_bytes at_val]. unfold attr_bytes. cbn [at_val]. rewrite L. vm_compute. discriminate.
Qed.
End LengthCases.

Print Assumptions C90_size.
Print Assumptions C90_multiple_of_16.
Print Assumptions C90_versions.
Print Assumptions C90_fits.
