(** C88: giving an attribute another value of the same size changes the bytes of that attribute and nothing else. *)
Require Import Coq.Lists.List Coq.NArith.NArith Coq.ZArith.ZArith Coq.Bool.Bool Coq.micromega.Lia.
Require Import Coq.Init.Byte.
Require Import ZifyBool ZifyNat ZifyN.
Require Import Verif.Base Verif.BaseFacts Verif.Utf8 Verif.Types Verif.Io Verif.IoFacts Verif.Parser Verif.ParserPos Verif.Zlib Verif.Spec Verif.SpecFacts Verif.Writer Verif.WriterSpec
  Verif.FooterFacts Verif.PropsDoc Verif.PropsWriter Verif.PropsRound Verif.Samples.
Import ListNotations.
Local Open Scope list_scope.

(** ** Proofs *)

(** Lists that differ in one element. *)
Inductive one {A} (R : A -> A -> Prop) : list A -> list A -> Prop :=
| one_i : forall l x x' m, R x x' -> one R (l ++ x :: m) (l ++ x' :: m).
Lemma one_snoc : forall A (R : A -> A -> Prop) l l' y, one R l l' -> one R (l ++ [y]) (l' ++ [y]).
Proof. intros A R l l' y [p x x' q H]. rewrite <- !app_assoc. cbn [app]. constructor. exact H. Qed.
Lemma one_last : forall A (R : A -> A -> Prop) l x x', R x x' -> one R (l ++ [x]) (l ++ [x']).
Proof. intros. constructor. assumption. Qed.
Lemma one_len : forall A (R : A -> A -> Prop) l l', one R l l' -> lenN l' = lenN l.
Proof. intros A R l l' [p x x' q H]. unfold lenN. rewrite !app_length. reflexivity. Qed.

Section WithEnv.
Context {env : Env} (a a' : attr) (HL : lenN (enc_attr a') = lenN (enc_attr a)).
Definition swap (x x' : attr) : Prop := x = a /\ x' = a'.

(** Nodes that differ in one attribute, of the node or of one below it. *)
Inductive changed : node -> node -> Prop :=
| changed_here : forall name ats ats' kids, one swap ats ats' -> changed (Node name ats kids) (Node name ats' kids)
| changed_below : forall name ats l k k' m, changed k k' -> changed (Node name ats (l ++ k :: m)) (Node name ats (l ++ k' :: m)).

(** The same bytes but for those of the attribute. *)
Definition patched (b b' : list byte) : Prop := exists pre post, b = pre ++ enc_attr a ++ post /\ b' = pre ++ enc_attr a' ++ post.
Lemma patched_in : forall x b b' y, patched b b' -> patched (x ++ b ++ y) (x ++ b' ++ y).
Proof. intros x b b' y (pre & post & -> & ->). exists (x ++ pre), (post ++ y). rewrite <- !app_assoc. auto. Qed.
Lemma patched_left : forall x b b', patched b b' -> patched (x ++ b) (x ++ b').
Proof. intros x b b' H. apply (patched_in x _ _ []) in H. rewrite !app_nil_r in H. exact H. Qed.
Lemma patched_right : forall b b' y, patched b b' -> patched (b ++ y) (b' ++ y).
Proof. intros b b' y H. exact (patched_in [] _ _ y H). Qed.
Lemma patched_len : forall b b', patched b b' -> lenN b' = lenN b.
Proof. intros b b' (pre & post & -> & ->). rewrite !lenN_app, HL. reflexivity. Qed.

Lemma one_attrs : forall l l', one swap l l' -> patched (enc_attrs l) (enc_attrs l').
Proof.
  intros l l' [p x x' q [-> ->]]. unfold enc_attrs. rewrite !flat_map_app. cbn [flat_map]. exists (flat_map enc_attr p), (flat_map enc_attr q). auto.
Qed.
Lemma needs_one : forall (l l' : list attr) (ks ks' : list node), lenN l' = lenN l -> lenN ks' = lenN ks -> needs_marker l' ks' = needs_marker l ks.
Proof.
  intros l l' ks ks' E F. unfold lenN in *. destruct l, l'; cbn [length] in E; try lia; destruct ks, ks'; cbn [length] in F; try lia; reflexivity.
Qed.

Lemma changed_node : forall n n', changed n n' -> forall ver,
  node_size ver n' = node_size ver n /\ (forall off, patched (enc_node ver off n) (enc_node ver off n')) /\
  (counts_ok ver n -> counts_ok ver n') /\ (attr_ok a' -> node_ok n -> node_ok n').
Proof.
  induction 1 as [name ats ats' kids H|name ats l k k' m H IH]; intros ver.
  - pose proof (one_len _ _ _ _ H) as L1. pose proof (one_attrs _ _ H) as PA. pose proof (patched_len _ _ PA) as L2.
    assert (S : node_size ver (Node name ats' kids) = node_size ver (Node name ats kids)) by (rewrite !node_size_eq, L2; unfold marker_size; rewrite (needs_one ats ats' kids kids L1 eq_refl); reflexivity).
    split; [exact S|]. split; [|split].
    + intros off. rewrite !enc_node_eq, S, L1, L2; unfold marker; rewrite (needs_one ats ats' kids kids L1 eq_refl). do 5 apply patched_left. apply patched_right. exact PA.
    + rewrite !counts_ok_eq, L1, L2. auto.
    + rewrite !node_ok_eq. intros A (N1 & N2 & N3 & N4). repeat (split; [assumption|]). split; [|exact N4].
      destruct H as [p x x' q [-> ->]]. apply Forall_app in N3. destruct N3 as [F1 F2]. inversion F2. apply Forall_app. auto.
  - destruct (IH ver) as (S0 & P0 & C0 & N0).
    assert (L1 : lenN (l ++ k' :: m) = lenN (l ++ k :: m)) by (unfold lenN; rewrite !app_length; reflexivity).
    assert (L2 : nodes_size ver (l ++ k' :: m) = nodes_size ver (l ++ k :: m)) by (rewrite !nodes_size_app; cbn [nodes_size fold_right]; rewrite S0; reflexivity).
    assert (S : node_size ver (Node name ats (l ++ k' :: m)) = node_size ver (Node name ats (l ++ k :: m))) by (rewrite !node_size_eq, L2; unfold marker_size; rewrite (needs_one ats ats _ _ eq_refl L1); reflexivity).
    split; [exact S|]. split; [|split].
    + intros off. rewrite !enc_node_eq, S; unfold marker; rewrite (needs_one ats ats _ _ eq_refl L1). do 6 apply patched_left. apply patched_right.
      rewrite !enc_nodes_app. apply patched_left. cbn [enc_nodes]. rewrite S0. apply patched_right. apply P0.
    + rewrite !counts_ok_eq. intros (A & B & C). repeat (split; [assumption|]). apply Forall_app in C. destruct C as [C1 C2]. inversion C2. apply Forall_app. auto.
    + rewrite !node_ok_eq. intros A (N1 & N2 & N3 & N4). repeat (split; [assumption|]). apply Forall_app in N4. destruct N4 as [C1 C2]. inversion C2. apply Forall_app. auto.
Qed.

Lemma changed_nodes : forall ns ns' ver, one changed ns ns' ->
  nodes_size ver ns' = nodes_size ver ns /\ (forall off, patched (enc_nodes ver off ns) (enc_nodes ver off ns')) /\ (attr_ok a' -> doc_ok ver ns -> doc_ok ver ns').
Proof.
  intros ns ns' ver [l k k' m H]. destruct (changed_node _ _ H ver) as (S0 & P0 & C0 & N0).
  assert (S : nodes_size ver (l ++ k' :: m) = nodes_size ver (l ++ k :: m)) by (rewrite !nodes_size_app; cbn [nodes_size fold_right]; rewrite S0; reflexivity).
  split; [exact S|]. split.
  - intros off. rewrite !enc_nodes_app. apply patched_left. cbn [enc_nodes]. rewrite S0. apply patched_right. apply P0.
  - intros A (V & N & C & U & B). unfold doc_ok. rewrite S. split; [exact V|]. split; [|split; [|auto]].
    + apply Forall_app in N. destruct N as [C1 C2]. inversion C2. apply Forall_app. auto.
    + apply Forall_app in C. destruct C as [C1 C2]. inversion C2. apply Forall_app. auto.
Qed.

(** Documents under construction that differ in the attribute. *)
Inductive fchanged : oframe -> oframe -> Prop :=
| fc_here : forall name ats ats' kids, one swap ats ats' -> fchanged (mkOF name ats kids) (mkOF name ats' kids)
| fc_below : forall name ats kids kids', one changed kids kids' -> fchanged (mkOF name ats kids) (mkOF name ats kids').
Inductive dchanged : odoc -> odoc -> Prop :=
| dc_nodes : forall ns ns' fs, one changed ns ns' -> dchanged (mkOD ns fs) (mkOD ns' fs)
| dc_frame : forall ns fs fs', one fchanged fs fs' -> dchanged (mkOD ns fs) (mkOD ns fs').

Lemma fchanged_node : forall f f', fchanged f f' -> changed (frame_node f) (frame_node f').
Proof. intros f f' [name ats ats' kids H|name ats kids kids' [l k k' m H]]; constructor; assumption. Qed.

Lemma one_cases : forall A (R : A -> A -> Prop) l l', one R l l' ->
  exists x l1, l = x :: l1 /\ ((exists x', l' = x' :: l1 /\ R x x') \/ exists l1', l' = x :: l1' /\ one R l1 l1').
Proof.
  intros A R l l' [[|y p] x x' q H]; cbn [app].
  - exists x, q. eauto 7.
  - exists y, (p ++ x :: q). split; [reflexivity|]. right. exists (p ++ x' :: q). split; [reflexivity|constructor; exact H].
Qed.
Lemma one_cons : forall A (R : A -> A -> Prop) y l l', one R l l' -> one R (y :: l) (y :: l').
Proof. intros A R y l l' [p x x' q H]. exact (one_i R (y :: p) x x' q H). Qed.
Lemma one_hd : forall A (R : A -> A -> Prop) x x' l, R x x' -> one R (x :: l) (x' :: l).
Proof. intros A R x x' l H. exact (one_i R [] x x' l H). Qed.

Lemma d_open : forall d d' name, dchanged d d' -> dchanged (open_node name d) (open_node name d').
Proof. intros d d' name [ns ns' fs H|ns fs fs' H]; unfold open_node; cbn [od_nodes od_frames]; constructor; [exact H|apply one_cons; exact H]. Qed.
Lemma d_attr : forall d d' x, dchanged d d' -> dchanged (add_attr x d) (add_attr x d').
Proof.
  intros d d' x [ns ns' fs H|ns fs fs' H]; unfold add_attr; cbn [od_nodes od_frames].
  - destruct fs; constructor; exact H.
  - destruct (one_cases _ _ _ _ H) as (f & t & -> & [(f' & -> & K)|(t' & -> & K)]); apply dc_frame.
    + apply one_hd. destruct K as [name ats ats' kids K|name ats kids kids' K]; cbn [of_name of_atts of_kids]; constructor; [apply one_snoc|]; exact K.
    + apply one_cons. exact K.
Qed.
Lemma d_node : forall d d' n, dchanged d d' -> dchanged (add_node n d) (add_node n d').
Proof.
  intros d d' x [ns ns' fs H|ns fs fs' H]; unfold add_node; cbn [od_nodes od_frames].
  - destruct fs; constructor; [apply one_snoc|]; exact H.
  - destruct (one_cases _ _ _ _ H) as (f & t & -> & [(f' & -> & K)|(t' & -> & K)]); apply dc_frame.
    + apply one_hd. destruct K as [name ats ats' kids K|name ats kids kids' K]; cbn [of_name of_atts of_kids]; constructor; [|apply one_snoc]; exact K.
    + apply one_cons. exact K.
Qed.
Lemma d_close : forall d d', dchanged d d' -> dchanged (close_open d) (close_open d').
Proof.
  intros d d' [ns ns' fs H|ns fs fs' H]; unfold close_open; cbn [od_nodes od_frames].
  - destruct fs as [|f t]; [constructor; exact H|]. apply d_node. constructor. exact H.
  - destruct (one_cases _ _ _ _ H) as (f & t & -> & [(f' & -> & K)|(t' & -> & K)]).
    + apply fchanged_node in K. unfold add_node. cbn [od_nodes od_frames]. destruct t as [|g t]; [apply dc_nodes; apply one_last; exact K|].
      apply dc_frame. apply one_hd. destruct g as [gn ga gk]. cbn [of_name of_atts of_kids]. apply fc_below. apply one_last. exact K.
    + apply d_node. apply dc_frame. exact K.
Qed.
Lemma d_attrs : forall l d d', dchanged d d' -> dchanged (add_attrs l d) (add_attrs l d').
Proof. induction l as [|c l IH]; intros d d' H; cbn [add_attrs]; [exact H|]. apply IH. destruct (attr_of c); [apply d_attr|]; exact H. Qed.
Lemma d_calls : forall l d d', dchanged d d' -> dchanged (doc_calls l d) (doc_calls l d').
Proof.
  induction l as [|c l IH]; intros d d' H; [exact H|]. cbn [doc_calls fold_left]. apply IH. destruct c as [name attrs|]; cbn [doc_call]; [apply d_attrs, d_open, H|apply d_close, H].
Qed.
Lemma add_attrs_app : forall l m d, add_attrs (l ++ m) d = add_attrs m (add_attrs l d).
Proof. induction l as [|c l IH]; intros m d; [reflexivity|]. cbn [app add_attrs]. apply IH. Qed.
Lemma add_attrs_open : forall l d, od_frames d <> [] -> od_frames (add_attrs l d) <> [].
Proof.
  induction l as [|c l IH]; intros d H; [exact H|]. cbn [add_attrs]. apply IH. destruct (attr_of c); [|exact H]. unfold add_attr. destruct (od_frames d); [congruence|discriminate].
Qed.

Lemma calls_changed : forall l name xs c c' ys l', attr_of c = Some a -> attr_of c' = Some a' ->
  dchanged (doc_calls (l ++ CNode name (xs ++ c :: ys) :: l') odoc_start) (doc_calls (l ++ CNode name (xs ++ c' :: ys) :: l') odoc_start).
Proof.
  intros l name xs c c' ys l' E E'. unfold doc_calls. rewrite !fold_left_app. cbn [fold_left]. fold (doc_calls l odoc_start). apply (d_calls l'). cbn [doc_call].
  rewrite !add_attrs_app. cbn [add_attrs]. rewrite E, E'. apply d_attrs. unfold add_attr.
  destruct (od_frames _) as [|f t] eqn:EF; [exfalso; revert EF; apply add_attrs_open; discriminate|]. apply dc_frame. apply one_hd. apply fc_here. apply one_last. split; reflexivity.
Qed.

Lemma frames_same : forall d d', dchanged d d' -> od_frames d = [] -> od_frames d' = [].
Proof. intros d d' [ns ns' fs H|ns fs fs' H]; cbn [od_frames]; [auto|]. destruct H as [[|y p] x x' q H]; discriminate. Qed.
Lemma finished_changed : forall ver f d d', dchanged d d' -> od_frames d = [] -> od_frames d' = [] ->
  patched (enc_finished ver (od_nodes d) f) (enc_finished ver (od_nodes d') f) /\ (attr_ok a' -> doc_ok ver (od_nodes d) -> doc_ok ver (od_nodes d')).
Proof.
  intros ver f d d' H F F'. destruct H as [ns ns' fs H|ns fs fs' H]; cbn [od_nodes od_frames] in *.
  - destruct (changed_nodes _ _ ver H) as (S & P & D). split; [|exact D]. unfold enc_finished. rewrite S. do 2 apply patched_left. apply patched_right. apply P.
  - destruct H as [[|y p] x x' q H]; discriminate.
Qed.
End WithEnv.

Section Theorems.
Context {env : Env}.

(** Two clients that make the same calls, except that one value is another one that takes as many
    bytes: the files are the same but for the bytes of that value. *)
Theorem C88_same_size_value : forall k ver l name xs c c' ys l' f k1 k2 a a', attr_of c = Some a -> attr_of c' = Some a' ->
  length (enc_attr a') = length (enc_attr a) ->
  finished k ver (l ++ CNode name (xs ++ c :: ys) :: l') f k1 -> finished k ver (l ++ CNode name (xs ++ c' :: ys) :: l') f k2 ->
  exists pre post, k_data k1 = pre ++ enc_attr a ++ post /\ k_data k2 = pre ++ enc_attr a' ++ post.
Proof.
  intros k ver l name xs c c' ys l' f k1 k2 a a' E E' HL F1 F2. assert (HN : lenN (enc_attr a') = lenN (enc_attr a)) by (unfold lenN; congruence).
  destruct F1 as [_ _ (s1 & fl1 & s1' & W1 & X1)], F2 as [_ _ (s2 & fl2 & s2' & W2 & X2)].
  destruct (C27_finished _ _ _ _ _ _ _ _ W1 X1) as (D1 & B1 & _), (C27_finished _ _ _ _ _ _ _ _ W2 X2) as (D2 & B2 & _).
  destruct (finished_changed a a' HN ver f _ _ (calls_changed a a' l name xs c c' ys l' E E') D1 D2) as (P & _).
  rewrite B1, B2, (patched_len _ _ HN _ _ P). apply patched_right. exact P.
Qed.

(** So the value can be changed in the file: with the bytes of a value of the same size written
    over those of the old one, it is the file of the document with the new value, followed by
    what followed the document before. *)
Theorem C88_overwritten : forall k ver l name xs c c' ys l' f k1 a a', attr_of c = Some a -> attr_of c' = Some a' ->
  length (enc_attr a') = length (enc_attr a) -> attr_ok a' -> standard f ->
  finished k ver (l ++ CNode name (xs ++ c :: ys) :: l') f k1 ->
  let ns' := nodes_of (l ++ CNode name (xs ++ c' :: ys) :: l') in
  exists pre post, k_data k1 = pre ++ enc_attr a ++ post /\
  exists ext, forall sched seeks seekable h p, nofail sched = true -> noseekfail seeks = true -> accepting h ->
    opened (pre ++ enc_attr a' ++ post) sched seeks seekable h p -> opened_doc ver ns' (foot_of ver ns' f) ext seekable p.
Proof.
  intros k ver l name xs c c' ys l' f k1 a a' E E' HL HA HS F1 ns'. assert (HN : lenN (enc_attr a') = lenN (enc_attr a)) by (unfold lenN; congruence).
  destruct (finished_bytes _ _ _ _ _ F1) as (HD & ext & B1). destruct F1 as [HT HB (s1 & fl1 & s1' & W1 & X1)].
  destruct (C27_finished _ _ _ _ _ _ _ _ W1 X1) as (D1 & _ & _).
  pose proof (calls_changed a a' l name xs c c' ys l' E E') as D.
  destruct (finished_changed a a' HN ver f _ _ D D1 (frames_same _ _ _ _ D D1)) as (P & DO).
  apply (patched_right a a' _ _ ext) in P. fold (nodes_of (l ++ CNode name (xs ++ c :: ys) :: l')) in P, DO. rewrite <- B1 in P. pose proof (patched_len _ _ HN _ _ P) as LP.
  destruct P as (pre & post & E1 & E2). exists pre, post. split; [exact E1|]. exists ext. intros sched seeks seekable h p H1 H2 H3 H4.
  rewrite <- E2 in H4. fold ns' in E2, H4, LP, DO. rewrite (standard_doc _ _ _ HS) in H4, LP. constructor.
  - apply DO; assumption.
  - apply standard_foot; assumption.
  - refine (N.le_lt_trans _ _ _ _ HB). apply N.eq_le_incl. exact LP.
  - exists sched, seeks, h. auto.
Qed.
End Theorems.

(** ** A concrete case *)
(** The string of the first node of the sample document, and binary data of the same size. *)
Module PatchCases.
Import PropsWriter.Cases RoundCases.
Definition old_call : acall := ADirect true s_hi.
Definition new_call : acall := ADirect false [x01; xff].
Definition calls_with (c : acall) : list wcall := [] ++ CNode s_a ([ASingle (SI32 (-5))] ++ c :: []) :: tl calls0.
Definition written_with (c : acall) : wstate :=
  match new_writer k0 7400 with Ok s => snd (run_wcalls (env := release) (calls_with c) s) | _ => mkW k0 0 [] end.
Definition file_with (c : acall) : sink := match finalize true default_footer (written_with c) with (Ok k, _) => k | _ => k0 end.
Lemma finished_with : forall c, In c [old_call; new_call] -> finished (env := release) k0 7400 (calls_with c) default_footer (file_with c).
Proof.
  intros c H. constructor; [repeat split|repeat (destruct H as [<-|H]; [vm_compute; reflexivity|]); contradiction|].
  exists (written_with c), true, (snd (finalize true default_footer (written_with c))). split; [constructor|].
  - destruct H as [<-|[<-|[]]]; (constructor; [|exact (Forall_inv_tail typed0)]); (split; [vm_compute; reflexivity|]); repeat constructor; vm_compute; try reflexivity; try discriminate; split; intro; discriminate.
  - constructor; [|exact (Forall_inv_tail faithful0)]. destruct H as [<-|[<-|[]]]; repeat constructor.
  - destruct H as [<-|[<-|[]]]; (eexists; eexists; split; [vm_compute; reflexivity|]; split; [vm_compute; reflexivity|]); repeat (constructor; auto).
  - destruct H as [<-|[<-|[]]]; vm_compute; reflexivity.
Qed.
Example patch_ex : calls_with old_call = calls0 /\ calls_with new_call <> calls0 /\
  finished (env := release) k0 7400 (calls_with old_call) default_footer (file_with old_call) /\
  finished (env := release) k0 7400 (calls_with new_call) default_footer (file_with new_call) /\ standard default_footer /\
  attr_of old_call = Some (mkAttr (VString s_hi) false) /\ attr_of new_call = Some (mkAttr (VBinary [x01; xff]) false) /\
  attr_ok (env := release) (mkAttr (VBinary [x01; xff]) false) /\
  k_data (file_with new_call) = firstn 46 (k_data (file_with old_call)) ++ [x52; x02; x00; x00; x00; x01; xff] ++ skipn 53 (k_data (file_with old_call)).
Proof.
  split; [reflexivity|]. split; [discriminate|]. split; [apply finished_with; cbn; auto|]. split; [apply finished_with; cbn; auto|].
  split; [exact default_standard|]. split; [reflexivity|]. split; [reflexivity|]. split; [split; [exact I|vm_compute; reflexivity]|]. vm_compute. reflexivity.
Qed.
End PatchCases.

Print Assumptions C88_same_size_value.
Print Assumptions C88_overwritten.
