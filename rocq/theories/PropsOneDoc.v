(** C89: a file says which document was written to it. *)
Require Import Coq.Lists.List Coq.NArith.NArith Coq.ZArith.ZArith Coq.Bool.Bool Coq.micromega.Lia.
Require Import Coq.Init.Byte.
Require Import ZifyBool ZifyNat ZifyN.
Require Import Verif.Base Verif.BaseFacts Verif.Utf8 Verif.Types Verif.Io Verif.IoFacts Verif.Parser Verif.Loaders Verif.Zlib Verif.Spec Verif.SpecFacts Verif.SpecLayout Verif.Layout Verif.PropsLayout Verif.Writer Verif.WriterSpec
  Verif.PropsWriter Verif.FooterFacts Verif.PropsRound Verif.TreeSpec Verif.TreeRound Verif.Samples.
Import ListNotations.
Local Open Scope list_scope.

(** ** Proofs *)

(** Elements of a fixed size. *)
Lemma concat_inj : forall A (enc : A -> list byte) (ok : A -> Prop) w, (0 < w)%nat -> (forall x, length (enc x) = w) -> (forall x y, ok x -> ok y -> enc x = enc y -> x = y) ->
  forall l l', Forall ok l -> Forall ok l' -> concat (map enc l) = concat (map enc l') -> l = l'.
Proof.
  intros A enc ok w Hw HL HI. induction l as [|x l IH]; intros [|y l'] F F' E; cbn [map concat] in E.
  - reflexivity.
  - apply (f_equal (@length byte)) in E. rewrite app_length, HL in E. cbn in E. lia.
  - apply (f_equal (@length byte)) in E. rewrite app_length, HL in E. cbn in E. lia.
  - apply app_inv_len in E; [|unfold lenN; rewrite !HL; reflexivity]. destruct E as [E1 E2]. inversion F; inversion F'; subst. f_equal; auto.
Qed.
Lemma concat_len : forall A (enc : A -> list byte) w l, (forall x, length (enc x) = w) -> length (concat (map enc l)) = (length l * w)%nat.
Proof. intros A enc w l HL. induction l as [|x l IH]; [reflexivity|]. cbn [map concat length]. rewrite app_length, HL, IH. lia. Qed.

Section WithEnv.
Context {env : Env} (HZ : zlib_roundtrip env).

Lemma z_enc_inj : forall l l', z_enc l = z_enc l' -> length (concat l) = length (concat l') -> concat l = concat l'.
Proof.
  intros l l' E L. destruct (HZ l []) as (st & u & Z1 & _ & R1), (HZ l' []) as (st' & u' & Z2 & _ & R2). rewrite E in Z1. rewrite Z1 in Z2. injection Z2 as <- EU.
  destruct (R1 [length (concat l)]) as (x & y & X1 & _); [cbn; lia|]. destruct (R2 [length (concat l)]) as (x' & y' & X2 & _); [cbn; lia|].
  rewrite E, EU, X2 in X1. injection X1 as X1 _ _.
  rewrite firstn_all in X1. rewrite L, firstn_all in X1. symmetry. exact X1.
Qed.

Lemma payload_inj : forall A (enc : A -> list byte) (ok : A -> Prop) w, (0 < w)%nat -> (forall x, length (enc x) = w) -> (forall x y, ok x -> ok y -> enc x = enc y -> x = y) ->
  forall z l l', Forall ok l -> Forall ok l' -> length l = length l' -> array_payload z (map enc l) = array_payload z (map enc l') -> l = l'.
Proof.
  intros A enc ok w Hw HL HI z l l' F F' L E. apply (concat_inj A enc ok w Hw HL HI l l' F F'). destruct z; cbn [array_payload] in E; [|exact E].
  apply z_enc_inj; [exact E|]. rewrite !(concat_len _ enc w) by exact HL. rewrite L. reflexivity.
Qed.

(** The value of an attribute can be read off its bytes. *)
Lemma i_enc_inj : forall k x y, (0 < k)%nat -> i_ok k x -> i_ok k y -> i_enc k x = i_enc k y -> x = y.
Proof. intros k x y Hk H1 H2 E. rewrite <- (i_dec_enc k x), <- (i_dec_enc k y) by assumption. rewrite E. reflexivity. Qed.
Lemma code_inj : forall t t', spec_code t = spec_code t' -> t = t'.
Proof. intros [] []; cbn; congruence. Qed.

Lemma array_inj : forall A (enc : A -> list byte) (ok : A -> Prop) w, (0 < w)%nat -> (forall x, length (enc x) = w) -> (forall x y, ok x -> ok y -> enc x = enc y -> x = y) ->
  forall z z' l l' r r', Forall ok l -> Forall ok l' ->
  u_ok 4 (lenN (map enc l)) /\ u_ok 4 (lenN (array_payload z (map enc l))) -> u_ok 4 (lenN (map enc l')) /\ u_ok 4 (lenN (array_payload z' (map enc l'))) ->
  (le_enc 4 (lenN (map enc l)) ++ le_enc 4 (if z then 1 else 0) ++ le_enc 4 (lenN (array_payload z (map enc l))) ++ array_payload z (map enc l)) ++ r =
  (le_enc 4 (lenN (map enc l')) ++ le_enc 4 (if z' then 1 else 0) ++ le_enc 4 (lenN (array_payload z' (map enc l'))) ++ array_payload z' (map enc l')) ++ r' -> l = l' /\ r = r'.
Proof.
  intros A enc ok w Hw HL HI z z' l l' r r' F F' [U1 U2] [V1 V2] E. rewrite <- !app_assoc in E.
  apply app_inv_len in E; [|rewrite !le_enc_lenN; reflexivity]. destruct E as [E1 E]. apply le_enc_inj in E1; auto.
  apply app_inv_len in E; [|rewrite !le_enc_lenN; reflexivity]. destruct E as [E2 E].
  assert (z = z') as <- by (destruct z, z'; try reflexivity; discriminate).
  apply app_inv_len in E; [|rewrite !le_enc_lenN; reflexivity]. destruct E as [E3 E]. apply le_enc_inj in E3; auto.
  apply app_inv_len in E; [|exact E3]. destruct E as [E4 E]. split; [|exact E].
  eapply payload_inj; eauto. unfold lenN in E1. rewrite !map_length in E1. lia.
Qed.

Lemma attr_inj : forall a a' r r', attr_ok a -> attr_ok a' -> enc_attr a ++ r = enc_attr a' ++ r' -> at_val a = at_val a' /\ r = r'.
Proof.
  intros [v z] [v' z'] r r' [H1 H2] [H1' H2'] E. unfold enc_attr in E. cbn [at_val at_zip] in *. cbn [app] in E. injection E as EC E. apply code_inj in EC.
  assert (BI : forall x y : bool, True -> True -> [spec_bool x] = [spec_bool y] -> x = y) by (intros [] []; cbn; congruence).
  assert (FT : forall l : list bool, Forall (fun _ => True) l) by (intros l; apply Forall_forall; auto).
  destruct v, v'; try discriminate EC; cbn [val_ok attr_fits at_val at_zip array_raw] in *;
    try (apply app_inv_len in E; [|unfold lenN; rewrite ?i_enc_length, ?le_enc_length; reflexivity]; destruct E as [E ->]; split; [|reflexivity]; f_equal;
         first [apply (BI _ _ I I E)|eapply i_enc_inj; [|eassumption|eassumption|exact E]; lia|eapply le_enc_inj; eassumption]).
  1-5: match type of E with _ = _ => idtac end; unfold attr_fits in H2, H2'; cbn [at_val array_raw at_zip] in H2, H2'.
  - destruct (array_inj bool (fun b => [spec_bool b]) (fun _ => True) 1 ltac:(lia) ltac:(reflexivity) BI _ _ _ _ _ _ (FT _) (FT _) H2 H2' E) as [-> ->]. auto.
  - destruct (array_inj Z (i_enc 4) (i_ok 4) 4 ltac:(lia) (i_enc_length 4) (fun x y => i_enc_inj 4 x y ltac:(lia)) _ _ _ _ _ _ H1 H1' H2 H2' E) as [-> ->]. auto.
  - destruct (array_inj Z (i_enc 8) (i_ok 8) 8 ltac:(lia) (i_enc_length 8) (fun x y => i_enc_inj 8 x y ltac:(lia)) _ _ _ _ _ _ H1 H1' H2 H2' E) as [-> ->]. auto.
  - destruct (array_inj N (le_enc 4) (u_ok 4) 4 ltac:(lia) (le_enc_length 4) (le_enc_inj 4) _ _ _ _ _ _ H1 H1' H2 H2' E) as [-> ->]. auto.
  - destruct (array_inj N (le_enc 8) (u_ok 8) 8 ltac:(lia) (le_enc_length 8) (le_enc_inj 8) _ _ _ _ _ _ H1 H1' H2 H2' E) as [-> ->]. auto.
  - change ((le_enc 4 (lenN s) ++ s) ++ r = (le_enc 4 (lenN s0) ++ s0) ++ r') in E. unfold attr_fits in H2, H2'; cbn [at_val] in H2, H2'; rewrite <- !app_assoc in E; apply app_inv_len in E; [|rewrite !le_enc_lenN; reflexivity];
    destruct E as [E1 E]; apply le_enc_inj in E1; auto; apply app_inv_len in E; [|exact E1]; destruct E as [-> ->]; auto.
  - change ((le_enc 4 (lenN s) ++ s) ++ r = (le_enc 4 (lenN s0) ++ s0) ++ r') in E. unfold attr_fits in H2, H2'; cbn [at_val] in H2, H2'; rewrite <- !app_assoc in E; apply app_inv_len in E; [|rewrite !le_enc_lenN; reflexivity];
    destruct E as [E1 E]; apply le_enc_inj in E1; auto; apply app_inv_len in E; [|exact E1]; destruct E as [-> ->]; auto.
Qed.
Lemma attrs_inj : forall l l' r r', Forall attr_ok l -> Forall attr_ok l' -> lenN l = lenN l' -> enc_attrs l ++ r = enc_attrs l' ++ r' -> map at_val l = map at_val l' /\ r = r'.
Proof.
  induction l as [|a l IH]; intros [|a' l'] r r' F F' L E; unfold lenN in L; cbn [length] in L; try lia; [auto|].
  unfold enc_attrs in E. cbn [flat_map] in E. rewrite <- !app_assoc in E. inversion F; inversion F'; subst. apply attr_inj in E; auto. destruct E as [E1 E].
  apply IH in E; auto; [|unfold lenN; lia]. destruct E as [E ->]. cbn [map]. rewrite E1, E. auto.
Qed.

(** The layout of a written node. *)
Fixpoint skel_of (n : node) : skel :=
  match n with Node name ats kids => Skel name (lenN ats) (lenN (enc_attrs ats)) (enc_attrs ats) (map skel_of kids) (needs_marker ats kids) end.

Lemma node_ind' : forall P : node -> Prop, (forall name ats kids, Forall P kids -> P (Node name ats kids)) -> forall n, P n.
Proof. intros P H. fix IH 1. intros [name ats kids]. apply H. induction kids as [|k kids IHk]; constructor; [apply IH|exact IHk]. Qed.

Lemma skels_size_of : forall ver l, Forall (fun n => skel_size ver (skel_of n) = node_size ver n) l -> skels_size ver (map skel_of l) = nodes_size ver l.
Proof. intros ver l F. induction F as [|n l H F IH]; [reflexivity|]. cbn [map]. rewrite nodes_size_cons, <- IH, <- H. reflexivity. Qed.
Lemma skel_of_size : forall ver n, skel_size ver (skel_of n) = node_size ver n.
Proof.
  intros ver. induction n as [name ats kids IH] using node_ind'. cbn [skel_of]. rewrite skel_size_eq, node_size_eq, (skels_size_of _ _ IH). reflexivity.
Qed.
Lemma skels_of_size : forall ver l, skels_size ver (map skel_of l) = nodes_size ver l.
Proof. intros ver l. apply skels_size_of. apply Forall_forall. intros n _. apply skel_of_size. Qed.

Lemma skel_of_lay : forall ver n off, lay_skel ver off (skel_of n) = enc_node ver off n.
Proof.
  intros ver. induction n as [name ats kids IH] using node_ind'; intros off. rewrite enc_node_eq, <- skel_of_size. cbn [skel_of]. rewrite lay_skel_eq. unfold lay_header. rewrite <- !app_assoc. do 6 f_equal.
  unfold marker. f_equal. generalize (off + header_size ver + lenN name + lenN (enc_attrs ats))%N as o.
  induction IH as [|k l Hk Hl IHl]; intros o; [reflexivity|]. cbn [map lay_skels enc_nodes]. rewrite Hk, skel_of_size, IHl. reflexivity.
Qed.
Lemma skels_of_lay : forall ver l off, lay_skels ver off (map skel_of l) = enc_nodes ver off l.
Proof. intros ver l. induction l as [|n l IH]; intros off; [reflexivity|]. cbn [map lay_skels enc_nodes]. rewrite skel_of_lay, skel_of_size, IH. reflexivity. Qed.

Lemma u_le : forall k a b, u_ok k b -> (a <= b)%N -> u_ok k a.
Proof. unfold u_ok. intros. lia. Qed.
Lemma skel_of_ok : forall ver n off, node_ok n -> counts_ok ver n -> u_ok (width ver) (off + node_size ver n) -> skel_ok false ver off (skel_of n).
Proof.
  intros ver. induction n as [name ats kids IH] using node_ind'; intros off HN HC HU. apply node_ok_eq in HN. destruct HN as (N1 & N2 & N3 & N4). apply counts_ok_eq in HC. destruct HC as (C1 & C2 & C3).
  pose proof (skel_of_size ver (Node name ats kids)) as SZ. cbn [skel_of] in *. apply skel_ok_eq. rewrite SZ. repeat (split; [assumption|]). split; [left; reflexivity|].
  rewrite node_size_eq in HU. assert (G : u_ok (width ver) (off + header_size ver + lenN name + lenN (enc_attrs ats) + nodes_size ver kids)) by (eapply u_le; [exact HU|lia]). clear HU SZ.
  revert G. generalize (off + header_size ver + lenN name + lenN (enc_attrs ats))%N as o.
  induction IH as [|k l Hk Hl IHl]; intros o G; [exact I|]. inversion N4; inversion C3; subst. rewrite nodes_size_cons in G. cbn [map skels_ok]. rewrite skel_of_size. split.
  - apply Hk; auto. eapply u_le; [exact G|lia].
  - apply IHl; auto. eapply u_le; [exact G|lia].
Qed.
Lemma skels_of_ok : forall ver l off, Forall node_ok l -> Forall (counts_ok ver) l -> u_ok (width ver) (off + nodes_size ver l) -> skels_ok false ver off (map skel_of l).
Proof.
  intros ver l. induction l as [|n l IH]; intros off N C U; [exact I|]. inversion N; inversion C; subst. rewrite nodes_size_cons in U. cbn [map skels_ok]. rewrite skel_of_size. split.
  - apply skel_of_ok; auto. eapply u_le; [exact U|lia].
  - apply IH; auto. eapply u_le; [exact U|lia].
Qed.

Lemma skel_of_doc : forall n n', node_ok n -> node_ok n' -> skel_of n = skel_of n' -> doc_of n = doc_of n'.
Proof.
  induction n as [name ats kids IH] using node_ind'; intros [name' ats' kids'] H H' E. apply node_ok_eq in H, H'. destruct H as (_ & _ & A & K), H' as (_ & _ & A' & K').
  cbn [skel_of] in E. injection E as -> EL _ EA EK _. cbn [doc_of].
  destruct (attrs_inj ats ats' [] [] A A' EL) as [-> _]; [rewrite EA; reflexivity|]. f_equal.
  clear - IH K K' EK. revert kids' K' EK. induction IH as [|k l Hk Hl IHl]; intros [|k' l'] K' EK; try discriminate; [reflexivity|].
  cbn [map] in *. injection EK as E1 E2. inversion K; inversion K'; subst. f_equal; auto.
Qed.
Lemma skels_of_doc : forall l l', Forall node_ok l -> Forall node_ok l' -> map skel_of l = map skel_of l' -> map doc_of l = map doc_of l'.
Proof.
  induction l as [|n l IH]; intros [|n' l'] H H' E; try discriminate; [reflexivity|]. cbn [map] in *. injection E as E1 E2. inversion H; inversion H'; subst. f_equal; [apply skel_of_doc|]; auto.
Qed.

(** ** The theorems *)

(** Two documents that the format can hold, whatever follows their end markers: if the bytes are
    the same then the versions, the documents and what follows are. *)
Theorem C89_bytes : forall ver ver' ns ns' rest rest', doc_ok ver ns -> doc_ok ver' ns' ->
  spec_magic ++ le_enc 4 ver ++ enc_nodes ver 27 ns ++ end_marker ver ++ rest = spec_magic ++ le_enc 4 ver' ++ enc_nodes ver' 27 ns' ++ end_marker ver' ++ rest' ->
  ver = ver' /\ map doc_of ns = map doc_of ns' /\ rest = rest'.
Proof.
  intros ver ver' ns ns' rest rest' (V & N & C & U & _) (V' & N' & C' & U' & _) E.
  destruct (C53_layout_unique false ver ver' (map skel_of ns) (map skel_of ns') rest rest' V V' (skels_of_ok _ _ _ N C U) (skels_of_ok _ _ _ N' C' U')) as (E1 & E2 & E3).
  - unfold lay_doc. rewrite !skels_of_lay, <- !app_assoc. exact E.
  - split; [exact E1|]. split; [|exact E3]. apply skels_of_doc; assumption.
Qed.

(** Two clients that write, with any calls, to any sinks, and end up with the same file, have
    written the same version, the same nodes and the same values. *)
Theorem C89_file : forall k k' ver ver' l l' f f' k1 k2, finished k ver l f k1 -> finished k' ver' l' f' k2 -> k_data k1 = k_data k2 ->
  ver = ver' /\ map doc_of (nodes_of l) = map doc_of (nodes_of l').
Proof.
  intros k k' ver ver' l l' f f' k1 k2 F1 F2 E. destruct (finished_bytes _ _ _ _ _ F1) as (D1 & x1 & B1), (finished_bytes _ _ _ _ _ F2) as (D2 & x2 & B2).
  rewrite B1, B2 in E. unfold enc_finished in E. rewrite <- !app_assoc in E. destruct (C89_bytes _ _ _ _ _ _ D1 D2 E) as (A & B & _). auto.
Qed.

(** With footers that can be read, the footers are the same, too. *)
Theorem C89_footer : forall k k' ver ver' l l' f f' k1 k2, finished k ver l f k1 -> finished k' ver' l' f' k2 -> k_data k1 = k_data k2 ->
  standard f -> standard f' -> foot_of ver (nodes_of l) f = foot_of ver' (nodes_of l') f'.
Proof.
  intros k k' ver ver' l l' f f' k1 k2 F1 F2 E S S'. destruct (finished_bytes _ _ _ _ _ F1) as (D1 & x1 & B1), (finished_bytes _ _ _ _ _ F2) as (D2 & x2 & B2).
  rewrite B1, B2, !standard_doc in E by assumption. unfold enc_doc in E. rewrite <- !app_assoc in E. destruct (C89_bytes _ _ _ _ _ _ D1 D2 E) as (A & _ & B). subst ver'.
  apply footer_unique in B; [apply B| |]; apply standard_foot; try assumption; [apply F1|apply F2].
Qed.
End WithEnv.

(** ** A concrete case *)
(** The sample calls, and other calls, on an empty sink that takes all it is given, with the same
    result: no superfluous [close_node], binary data given at once. *)
Module OneDocCases.
Import PropsWriter.Cases RoundCases.
Definition other_sink : sink := mkSink [] 0 [] [] None.
Definition other_calls : list wcall :=
  [ CNode s_a [ASingle (SI32 (-5)); ADirect true s_hi];
      CNode s_b []; CClose;
      CNode [] [ASingle (SBool true)]; CClose;
    CClose;
    CNode s_c [AArray (Some EncZlib) (LI32 [1; -2; 3]%Z) false; AArray (Some EncDirect) (LBool [true; false]) false; ADirect false [x01; xff]];
    CClose ].
Definition other_state : wstate :=
  match new_writer other_sink 7400 with Ok s => snd (run_wcalls (env := release) other_calls s) | _ => mkW k0 0 [] end.
Definition other_file : sink := match finalize false default_footer other_state with (Ok k, _) => k | _ => k0 end.
Example one_doc_ex : zlib_roundtrip release /\ calls0 <> other_calls /\
  finished (env := release) k0 7400 calls0 default_footer (done0 default_footer) /\
  finished (env := release) other_sink 7400 other_calls default_footer other_file /\
  k_data (done0 default_footer) = k_data other_file /\ standard default_footer.
Proof.
  split; [apply stored_roundtrip|]. split; [discriminate|]. split; [apply finished0; cbn; auto|]. split; [|split; [vm_compute; reflexivity|exact default_standard]].
  constructor; [repeat split|vm_compute; reflexivity|]. exists other_state, false, (snd (finalize false default_footer other_state)). split; [constructor|vm_compute; reflexivity].
  - repeat constructor; vm_compute; try reflexivity; try (split; intro; discriminate). all: discriminate.
  - repeat constructor.
  - eexists. eexists. split; [vm_compute; reflexivity|]. split; [vm_compute; reflexivity|]. repeat (constructor; auto).
Qed.
End OneDocCases.

Print Assumptions C89_bytes.
Print Assumptions C89_file.
Print Assumptions C89_footer.
