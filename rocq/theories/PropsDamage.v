(** C86: damage to the bytes of attributes does not reach the structure of the document. *)
Require Import Coq.Lists.List Coq.NArith.NArith Coq.ZArith.ZArith Coq.Bool.Bool Coq.micromega.Lia.
Require Import Coq.Init.Byte.
Require Import ZifyBool ZifyNat ZifyN.
Require Import Verif.Base Verif.BaseFacts Verif.Utf8 Verif.Types Verif.Io Verif.IoFacts Verif.Parser Verif.ParserHist Verif.ParserPos Verif.FooterFacts Verif.Spec Verif.PropsDoc Verif.PropsSafety
  Verif.SpecLayout Verif.Layout Verif.PropsAttrPos Verif.PropsLayout Verif.Samples
  Verif.Tree Verif.TreeSpec Verif.TreeIo.
Import ListNotations.
Local Open Scope N_scope.

(** ** Specification *)

(** Where the attributes of a node at offset [off] and of all nodes below it are: offset and number
    of bytes of each region. *)
Fixpoint regions (ver off : N) (k : skel) {struct k} : list (N * N) :=
  match k with
  | Skel name count claimed region kids marked =>
      let start := off + header_size ver + lenN name in
      (start, lenN region) ::
      (fix go o l := match l with [] => [] | k :: l' => regions ver o k ++ go (o + skel_size ver k) l' end) (start + lenN region) kids
  end.
Fixpoint all_regions (ver off : N) (l : list skel) : list (N * N) :=
  match l with [] => [] | k :: l' => regions ver off k ++ all_regions ver (off + skel_size ver k) l' end.

(** The offset [i] lies in none of the ranges. *)
Definition outside (rs : list (N * N)) (i : N) : Prop := forall a n, In (a, n) rs -> ~ (a <= i < a + n).
(** Two files of the same length with the same bytes outside of the ranges. *)
Definition differ_within (rs : list (N * N)) (data data' : list byte) : Prop :=
  lenN data' = lenN data /\ forall i, outside rs i -> nth_error data' (N.to_nat i) = nth_error data (N.to_nat i).

(** ** Proofs *)
(** The same for pieces of files that begin at offset [off]. *)
Definition agree (off : N) (rs : list (N * N)) (l l' : list byte) : Prop :=
  length l' = length l /\ forall i, (i < length l)%nat -> outside rs (off + N.of_nat i) -> nth_error l' i = nth_error l i.

Lemma differ_agree : forall rs d d', differ_within rs d d' -> agree 0 rs d d'.
Proof.
  intros rs d d' [L H]. split; [unfold lenN in L; lia|]. intros i _ O. specialize (H _ O). rewrite N.add_0_l, Nnat.Nat2N.id in H. exact H.
Qed.
Lemma nth_ext' : forall (l l' : list byte), (forall i, nth_error l i = nth_error l' i) -> l = l'.
Proof.
  induction l as [|x l IH]; intros [|y l'] H; [reflexivity|specialize (H 0%nat); discriminate|specialize (H 0%nat); discriminate|].
  pose proof (H 0%nat) as [= ->]. f_equal. apply IH. intros i. apply (H (S i)).
Qed.
Lemma agree_all : forall off l l', agree off [] l l' -> l' = l.
Proof.
  intros off l l' [L H]. apply nth_ext'. intros i. destruct (Nat.lt_ge_cases i (length l)) as [B|B].
  - apply H; [exact B|]. intros a n [].
  - rewrite !(proj2 (nth_error_None _ _)) by lia. reflexivity.
Qed.
Definition below (rs : list (N * N)) (b : N) : Prop := Forall (fun r => fst r + snd r <= b) rs.
Definition above (rs : list (N * N)) (b : N) : Prop := Forall (fun r => b <= fst r) rs.
Lemma agree_app : forall off r1 r2 l1 l2 l', agree off (r1 ++ r2) (l1 ++ l2) l' -> below r1 (off + lenN l1) -> above r2 (off + lenN l1) ->
  exists l1' l2', l' = l1' ++ l2' /\ agree off r1 l1 l1' /\ agree (off + lenN l1) r2 l2 l2'.
Proof.
  intros off r1 r2 l1 l2 l' [L H] B A. rewrite app_length in *. exists (firstn (length l1) l'), (skipn (length l1) l').
  split; [symmetry; apply firstn_skipn|]. unfold below, above, lenN in *. rewrite Forall_forall in A, B. split; split.
  - rewrite firstn_length_le; lia.
  - intros i I O. specialize (H i ltac:(lia)). rewrite nth_error_app1 in H by exact I. rewrite <- H.
    + rewrite <- (firstn_skipn (length l1) l') at 2. rewrite nth_error_app1; [reflexivity|]. rewrite firstn_length_le; lia.
    + intros a n X. apply in_app_or in X. destruct X as [X|X]; [apply (O _ _ X)|]. specialize (A _ X). cbn in A. lia.
  - rewrite skipn_length. lia.
  - intros i I O. specialize (H (length l1 + i)%nat ltac:(lia)). rewrite nth_error_app2 in H by lia. replace (length l1 + i - length l1)%nat with i in H by lia. rewrite <- H.
    + rewrite <- (firstn_skipn (length l1) l') at 2. assert (Q : length (firstn (length l1) l') = length l1) by (apply firstn_length_le; lia).
      rewrite nth_error_app2 by lia. rewrite Q. f_equal. lia.
    + intros a n X. apply in_app_or in X. destruct X as [X|X].
      * specialize (B _ X). cbn in B. lia.
      * replace (off + N.of_nat (length l1 + i)) with (off + N.of_nat (length l1) + N.of_nat i) by lia. apply (O _ _ X).
Qed.

Lemma regions_eq : forall ver off name count claimed region kids marked, regions ver off (Skel name count claimed region kids marked) =
  (off + header_size ver + lenN name, lenN region) :: all_regions ver (off + header_size ver + lenN name + lenN region) kids.
Proof.
  intros. cbn [regions]. f_equal. generalize (off + header_size ver + lenN name + lenN region). induction kids as [|k l IH]; intros o; [reflexivity|]. cbn [all_regions]. rewrite IH. reflexivity.
Qed.
Lemma bounds_app : forall a b x, (below (a ++ b) x <-> below a x /\ below b x) /\ (above (a ++ b) x <-> above a x /\ above b x).
Proof. intros. unfold below, above. rewrite !Forall_app. tauto. Qed.
Lemma below_le : forall rs a b, below rs a -> a <= b -> below rs b.
Proof. unfold below. intros rs a b H L. eapply Forall_impl; [|exact H]. intros x X. cbv beta in X. lia. Qed.
Lemma above_le : forall rs a b, above rs a -> b <= a -> above rs b.
Proof. unfold above. intros rs a b H L. eapply Forall_impl; [|exact H]. intros x X. cbv beta in X. lia. Qed.

Lemma regions_span : forall ver k off, above (regions ver off k) off /\ below (regions ver off k) (off + skel_size ver k).
Proof.
  intros ver k. induction k as [name count claimed region kids marked IH] using skel_ind'; intros off. rewrite regions_eq, skel_size_eq.
  assert (G : forall o, above (all_regions ver o kids) o /\ below (all_regions ver o kids) (o + skels_size ver kids)).
  { induction IH as [|k l Hk _ IHl]; intros o; cbn [all_regions]; [split; constructor|]. rewrite skels_size_cons. destruct (Hk o) as [A B], (IHl (o + skel_size ver k)) as [C D].
    split; apply bounds_app; split; auto; [eapply above_le; [exact C|lia]|eapply below_le; [exact B|lia]|eapply below_le; [exact D|lia]]. }
  destruct (G (off + header_size ver + lenN name + lenN region)) as [A B]. split; (constructor; cbn [fst snd]; [destruct marked; lia|]).
  - eapply above_le; [exact A|lia].
  - eapply below_le; [exact B|destruct marked; lia].
Qed.
Lemma all_regions_span : forall ver l o, above (all_regions ver o l) o /\ below (all_regions ver o l) (o + skels_size ver l).
Proof.
  intros ver. induction l as [|k l IHl]; intros o; cbn [all_regions]; [split; constructor|]. rewrite skels_size_cons. destruct (regions_span ver k o) as [A B], (IHl (o + skel_size ver k)) as [C D].
  split; apply bounds_app; split; auto; [eapply above_le; [exact C|lia]|eapply below_le; [exact B|lia]|eapply below_le; [exact D|lia]].
Qed.

(** The same but for the contents of the regions. *)
Inductive alike : skel -> skel -> Prop :=
| alike_i : forall name count claimed region region' kids kids' marked, length region' = length region -> Forall2 alike kids kids' ->
    alike (Skel name count claimed region kids marked) (Skel name count claimed region' kids' marked).

Lemma alike_skel : forall k k' ver off wraps, alike k k' ->
  skel_size ver k' = skel_size ver k /\ skel_events k' = skel_events k /\ skel_warnings k' = skel_warnings k /\ (skel_ok wraps ver off k -> skel_ok wraps ver off k').
Proof.
  intros k. induction k as [name count claimed region kids marked IH] using skel_ind'; intros k' ver off wraps H. inversion H as [? ? ? ? region' ? kids' ? L F]; subst.
  assert (LR : lenN region' = lenN region) by (unfold lenN; congruence).
  assert (G : skels_size ver kids' = skels_size ver kids /\ flat_map skel_events kids' = flat_map skel_events kids /\ flat_map skel_warnings kids' = flat_map skel_warnings kids /\
    forall o, skels_ok wraps ver o kids -> skels_ok wraps ver o kids').
  { clear - IH F. revert IH. induction F as [|k k' l l' A F IHF]; intros IH; [auto|]. inversion IH as [|? ? Hk Hl]; subst. destruct (IHF Hl) as (E1 & E2 & E3 & E4).
    destruct (Hk k' ver 0 wraps A) as (A1 & A2 & A3 & _). rewrite !skels_size_cons. cbn [flat_map]. rewrite E1, E2, E3, A1, A2, A3.
    split; [reflexivity|]. split; [reflexivity|]. split; [reflexivity|]. intros o [O1 O2]. cbn [skels_ok]. rewrite A1. split; [|auto]. apply (Hk k' ver o wraps A), O1. }
  destruct G as (G1 & G2 & G3 & G4). rewrite !skel_size_eq, !skel_events_eq, !skel_warnings_eq, G1, G2, G3, LR.
  assert (EW : end_warnings count kids' marked = end_warnings count kids marked) by (unfold end_warnings; inversion F; reflexivity). rewrite EW.
  split; [reflexivity|]. split; [reflexivity|]. split; [reflexivity|]. rewrite !skel_ok_eq, !skel_size_eq, G1, LR. intros (O1 & O2 & O3 & O4 & O5 & O6 & O7).
  repeat (split; [assumption|]). split; [|apply G4, O7]. destruct O6 as [O6|(W & -> & O6)]; [left; congruence|]. right. destruct region'; [auto|discriminate].
Qed.
Lemma alikes : forall l l' ver wraps, Forall2 alike l l' ->
  skels_size ver l' = skels_size ver l /\ flat_map skel_events l' = flat_map skel_events l /\ flat_map skel_warnings l' = flat_map skel_warnings l /\
  (forall o, skels_ok wraps ver o l -> skels_ok wraps ver o l').
Proof.
  intros l l' ver wraps F. induction F as [|k k' l l' A F (E1 & E2 & E3 & E4)]; [auto|].
  destruct (alike_skel _ _ ver 0 wraps A) as (A1 & A2 & A3 & _). rewrite !skels_size_cons. cbn [flat_map]. rewrite E1, E2, E3, A1, A2, A3.
  split; [reflexivity|]. split; [reflexivity|]. split; [reflexivity|]. intros o [O1 O2]. cbn [skels_ok]. rewrite A1. split; [|auto]. apply (alike_skel _ _ ver o wraps A), O1.
Qed.

(** A file that differs within the regions has the layout of a document alike. *)
Lemma lay_damaged : forall ver k off l', agree off (regions ver off k) (lay_skel ver off k) l' -> exists k', alike k k' /\ l' = lay_skel ver off k'.
Proof.
  intros ver k. induction k as [name count claimed region kids marked IH] using skel_ind'; intros off l' H. rewrite regions_eq, lay_skel_eq in H.
  assert (LH : forall e, lenN (lay_header ver e count claimed name) = header_size ver + lenN name).
  { intros e. unfold lay_header. rewrite !lenN_app, !le_enc_lenN. unfold header_size. change (lenN [Nb (lenN name)]) with 1. lia. }
  assert (KS : forall o m', agree o (all_regions ver o kids) (lay_skels ver o kids) m' -> exists kids', Forall2 alike kids kids' /\ m' = lay_skels ver o kids').
  { clear H. induction IH as [|k l Hk _ IHl]; intros o m' A; cbn [all_regions lay_skels] in A.
    - apply agree_all in A. exists []. subst m'. auto.
    - destruct (regions_span ver k o) as [_ B1], (all_regions_span ver l (o + skel_size ver k)) as [B2 _].
      apply agree_app in A; rewrite ?lay_skel_len; auto. destruct A as (m1 & m2 & -> & A1 & A2). rewrite lay_skel_len in A2.
      destruct (Hk _ _ A1) as (k' & K1 & ->), (IHl _ _ A2) as (l2 & L1 & ->). exists (k' :: l2). split; [constructor; assumption|]. cbn [lay_skels]. rewrite (proj1 (alike_skel _ _ ver 0 true K1)). reflexivity. }
  match type of H with agree _ (?r :: ?rs) (?h ++ ?g) _ => set (hd := h) in *; change (agree off ([] ++ [r] ++ rs) (hd ++ g) l') in H end.
  assert (HD : lenN hd = header_size ver + lenN name) by apply LH.
  destruct (all_regions_span ver kids (off + header_size ver + lenN name + lenN region)) as [S1 S2].
  apply agree_app in H; [|constructor|constructor; cbn [fst]; [lia|eapply above_le; [exact S1|lia]]]. destruct H as (h' & l1 & -> & A1 & H). apply agree_all in A1. subst h'. rewrite HD in H.
  apply agree_app in H; [|constructor; [cbn [fst snd]; lia|constructor]|eapply above_le; [exact S1|lia]]. destruct H as (g' & l2 & -> & [A2 _] & H).
  rewrite <- (app_nil_r (all_regions _ _ _)) in H.
  replace (off + (header_size ver + lenN name) + lenN region) with (off + header_size ver + lenN name + lenN region) in H by lia.
  apply agree_app in H; [|rewrite lay_skels_len; exact S2|constructor]. destruct H as (ks' & m' & -> & A3 & A4). apply agree_all in A4. subst m'.
  destruct (KS _ _ A3) as (kids' & F & ->). exists (Skel name count claimed g' kids' marked). split; [constructor; assumption|].
  assert (LG : lenN g' = lenN region) by (unfold lenN; congruence).
  rewrite lay_skel_eq, !skel_size_eq, LG, (proj1 (alikes _ _ ver true F)). unfold hd. rewrite skel_size_eq. reflexivity.
Qed.
Lemma lays_damaged : forall ver l off m', agree off (all_regions ver off l) (lay_skels ver off l) m' -> exists l', Forall2 alike l l' /\ m' = lay_skels ver off l'.
Proof.
  intros ver. induction l as [|k l IHl]; intros o m' A; cbn [all_regions lay_skels] in A.
  - apply agree_all in A. exists []. subst m'. auto.
  - destruct (regions_span ver k o) as [_ B1], (all_regions_span ver l (o + skel_size ver k)) as [B2 _].
    apply agree_app in A; rewrite ?lay_skel_len; auto. destruct A as (m1 & m2 & -> & A1 & A2). rewrite lay_skel_len in A2.
    destruct (lay_damaged _ _ _ _ A1) as (k' & K1 & ->), (IHl _ _ A2) as (l2 & L1 & ->). exists (k' :: l2). split; [constructor; assumption|]. cbn [lay_skels]. rewrite (proj1 (alike_skel _ _ ver 0 true K1)). reflexivity.
Qed.
Lemma doc_damaged : forall ver nodes rest data', differ_within (all_regions ver 27 nodes) (lay_doc ver nodes ++ rest) data' ->
  exists nodes', Forall2 alike nodes nodes' /\ data' = lay_doc ver nodes' ++ rest.
Proof.
  intros ver nodes rest data' H. apply differ_agree in H. unfold lay_doc in H. rewrite <- !app_assoc in H. destruct (all_regions_span ver nodes 27) as [S1 S2].
  assert (L27 : lenN (spec_magic ++ le_enc 4 ver) = 27) by (rewrite lenN_app, le_enc_lenN; reflexivity).
  rewrite (app_assoc spec_magic) in H. change (all_regions ver 27 nodes) with ([] ++ all_regions ver 27 nodes) in H.
  apply agree_app in H; [|constructor|rewrite L27; eapply above_le; [exact S1|lia]]. destruct H as (h & l1 & -> & A1 & H). apply agree_all in A1. subst h. rewrite L27, N.add_0_l in H.
  rewrite <- (app_nil_r (all_regions _ _ _)) in H. apply agree_app in H; [|rewrite lay_skels_len; exact S2|constructor]. destruct H as (l2 & l3 & -> & A2 & A3). apply agree_all in A3. subst l3.
  destruct (lays_damaged _ _ _ _ A2) as (nodes' & F & ->). exists nodes'. split; [exact F|]. unfold lay_doc. rewrite <- !app_assoc. reflexivity.
Qed.

Section WithEnv.
Context {env : Env}.

(** A file that is read to the end of its document, and the file with other bytes in any of the
    regions of attributes: reading gives the same events, and the same footer if it has one. *)
Theorem C86_events : forall O data sched seeks h p rs f p', lenN data < 2 ^ 64 -> nofail sched = true -> noseekfail seeks = true -> accepting h ->
  opened data sched seeks true h p ->
  run_ops (repeat (@ONext O) (S (length rs))) p = (rs ++ [Ok (BEvent (EvEndFbx f))], p') ->
  exists nodes rest, data = lay_doc (p_ver p) nodes ++ rest /\ skels_ok (negb ovf_checks) (p_ver p) 27 nodes /\
    forall data' sched' seeks' h', differ_within (all_regions (p_ver p) 27 nodes) data data' ->
    nofail sched' = true -> noseekfail seeks' = true -> accepting h' ->
    exists q f' q', opened data' sched' seeks' true h' q /\ p_ver q = p_ver p /\
      run_ops (repeat (@ONext O) (S (length rs))) q = (rs ++ [Ok (BEvent (EvEndFbx f'))], q') /\
      (forall ft, f = inr ft <-> f' = inr ft) /\
      exists ws fw fw', map fst (rev (p_log p')) = ws ++ fw /\ map fst (rev (p_log q')) = ws ++ fw' /\ Forall from_footer fw /\ Forall from_footer fw'.
Proof.
  intros O data sched seeks h p rs f p' HL Hs Hk Hh Ho R. destruct (C53_accepted_layout _ _ _ _ _ _ _ _ _ _ Ho R) as (nodes & rest & fw & ED & OK & ER & EW & FW).
  exists nodes, rest. split; [exact ED|]. split; [exact OK|]. intros data' sched' seeks' h' DW Hs' Hk' Hh'.
  rewrite ED in DW. destruct (doc_damaged _ _ _ _ DW) as (nodes' & F & ->). destruct DW as [LD _]. rewrite <- ED in LD.
  destruct (alikes _ _ (p_ver p) (negb ovf_checks) F) as (_ & E2 & E3 & E4).
  assert (V : 7000 <= p_ver p <= 7999) by (eapply opened_init; exact Ho).
  assert (LR : length rs = length (flat_map skel_events nodes)) by (rewrite ER; apply map_length).
  destruct (C53_layout_accepted O _ nodes rest sched seeks h V OK ltac:(rewrite <- ED; exact HL) Hs Hk Hh) as (p1 & f1 & p1' & fw1 & O1 & _ & R1 & _ & _ & M1).
  rewrite <- ED in O1. assert (p1 = p) as -> by (destruct O1 as (x & X1 & ->), Ho as (y & Y1 & ->); rewrite X1 in Y1; injection Y1 as <-; reflexivity).
  rewrite <- LR, R, map_app, <- ER in R1. injection R1 as R1 <-. apply app_inv_head in R1. injection R1 as <-.
  destruct (C53_layout_accepted O _ nodes' rest sched' seeks' h' V (E4 _ OK) ltac:(rewrite LD; exact HL) Hs' Hk' Hh') as (q & f2 & q' & fw2 & O2 & V2 & R2 & W2 & FW2 & M2).
  rewrite E2, <- LR, map_app, <- ER in R2. exists q, f2, q'. split; [exact O2|]. split; [exact V2|]. split; [exact R2|]. split.
  - intros ft. destruct f as [e|g], f2 as [e2|g2].
    + split; discriminate.
    + destruct M2 as (f0 & ext & X1 & X2 & _). destruct (M1 _ _ X1 X2).
    + destruct M1 as (f0 & ext & X1 & X2 & _). destruct (M2 _ _ X1 X2).
    + destruct M1 as (f0 & ext & X1 & X2 & ->), M2 as (f0' & ext' & Y1 & Y2 & ->). rewrite X2 in Y2. destruct (footer_unique _ _ _ _ _ X1 Y1 Y2) as [<- _]. tauto.
  - exists (flat_map skel_warnings nodes), fw, fw2. rewrite E3 in W2. auto.
Qed.
End WithEnv.

(** ** A concrete case *)
(** The attributes of both nodes of [warning_doc] overwritten: the first region now starts with no
    type of attribute, the second one is a string that claims four thousand million bytes. *)
Definition damaged_doc : list byte :=
  firstn 41 warning_doc ++ [xff; xff] ++ firstn 40 (skipn 43 warning_doc) ++ [x53; xff; xff; xff; xff] ++ skipn 88 warning_doc.
Example damaged_ex : all_regions 7400 27 warning_nodes = [(41, 2); (56, 0); (83, 5)] /\ warning_doc <> damaged_doc /\
  differ_within (all_regions 7400 27 warning_nodes) warning_doc damaged_doc.
Proof.
  assert (E : all_regions 7400 27 warning_nodes = [(41, 2); (56, 0); (83, 5)]) by (vm_compute; reflexivity).
  split; [exact E|]. split; [vm_compute; discriminate|]. rewrite E. split; [vm_compute; reflexivity|]. intros i Hi.
  assert (L : (length warning_doc = 286)%nat) by (vm_compute; reflexivity). assert (L' : (length damaged_doc = 286)%nat) by (vm_compute; reflexivity).
  assert (C : forallb (fun n => (41 <=? n)%nat && (n <? 43)%nat || (83 <=? n)%nat && (n <? 88)%nat ||
    match nth_error damaged_doc n, nth_error warning_doc n with Some a, Some b => Byte.eqb a b | _, _ => false end) (seq 0 286) = true) by (vm_compute; reflexivity).
  destruct (Nat.ltb_spec (N.to_nat i) 286) as [Hl|Hl].
  - rewrite forallb_forall in C. specialize (C (N.to_nat i) ltac:(apply in_seq; lia)).
    assert (~ (41 <= i < 41 + 2)) by (apply Hi; cbn [In]; auto). assert (~ (83 <= i < 83 + 5)) by (apply Hi; cbn [In]; auto).
    apply orb_true_iff in C. destruct C as [C|C]; [exfalso; lia|].
    destruct (nth_error damaged_doc _) as [a|], (nth_error warning_doc _) as [b|]; try discriminate. apply Byte.byte_dec_bl in C. subst b. reflexivity.
  - rewrite (proj2 (nth_error_None _ _)), (proj2 (nth_error_None _ _)); [reflexivity|lia|lia].
Qed.
(** Both files are read to the same end; only loading the attributes would tell them apart. *)
Example damaged_reads : exists p p' q q' f, opened warning_doc [AChunk 5; AChunk 1] [] true None p /\ opened damaged_doc [] [] true None q /\
  run_ops (env:=checked) (repeat (@ONext unit) 7) p = (map (fun e => Ok (BEvent e)) (flat_map skel_events warning_nodes) ++ [Ok (BEvent (EvEndFbx (inr f)))], p') /\
  run_ops (env:=checked) (repeat (@ONext unit) 7) q = (map (fun e => Ok (BEvent e)) (flat_map skel_events warning_nodes) ++ [Ok (BEvent (EvEndFbx (inr f)))], q').
Proof.
  unfold opened. do 5 eexists. split; [eexists; split; [vm_compute; reflexivity|reflexivity]|]. split; [eexists; split; [vm_compute; reflexivity|reflexivity]|].
  split; vm_compute; reflexivity.
Qed.

(** The claim ends where attributes are loaded, even if no load fails.  A node [A] has an array of
    no elements and a child.  With one byte of the array header changed, the array has 7 elements,
    more than its byte length; loading it takes the 28 bytes of the child for elements, and the
    tree is loaded, without an error, with neither the child nor a trace of it. *)
Definition swallowed_nodes (count : N) : list skel :=
  [Skel s_a 1 13 ([x69] ++ le_enc 4 count ++ zeros 8) [Skel s_hi 0 0 [] [] true] true].
Definition swallowed (count : N) : list byte := lay_doc 7400 (swallowed_nodes count) ++ enc_footer 7400 (mkFoot good_unknown1 0).
Theorem C86_tree_refuted : differ_within (all_regions 7400 27 (swallowed_nodes 0)) (swallowed 0) (swallowed 7) /\
  exists t f t' l, any_tree (env := release) (mkStream (swallowed 0) 0 [] []) true = Ok (7400, t, inr f) /\
    any_tree (env := release) (mkStream (swallowed 7) 0 [] []) true = Ok (7400, t', inr f) /\
    doc_at t (tr_root t) (DNode [] [] [DNode s_a [VArrI32 []] [DNode s_hi [] []]]) /\
    doc_at t' (tr_root t') (DNode [] [] [DNode s_a [VArrI32 l] []]) /\ length l = 7%nat.
Proof.
  split.
  - split; [reflexivity|]. intros i Hi. assert (H : ~ (41 <= i < 41 + 13)) by (apply Hi; vm_compute; auto).
    destruct (N.eq_dec i 42) as [->|Ni]; [exfalso; lia|]. assert (N.to_nat i <> 42%nat) by lia. generalize dependent (N.to_nat i). clear.
    change (swallowed 7) with (firstn 42 (swallowed 0) ++ [x07] ++ skipn 43 (swallowed 0)).
    intros n Hn. rewrite <- (firstn_skipn 42 (swallowed 0)) at 3. change (skipn 42 (swallowed 0)) with ([x00] ++ skipn 43 (swallowed 0)).
    assert (L : length (firstn 42 (swallowed 0)) = 42%nat) by reflexivity.
    destruct (Nat.ltb_spec n 42). { rewrite !nth_error_app1 by lia. reflexivity. }
    rewrite (nth_error_app2 _ ([x07] ++ _)), (nth_error_app2 _ ([x00] ++ _)) by lia. rewrite L. destruct (n - 42)%nat eqn:E; [lia|reflexivity].
  - do 4 eexists. split; [vm_compute; reflexivity|]. split; [vm_compute; reflexivity|].
    split; [|split]; cycle 2.
    + instantiate (1 := [_; _; _; _; _; _; _]). reflexivity.
    + repeat (econstructor; try (vm_compute; reflexivity)).
    + repeat (econstructor; try (vm_compute; reflexivity)).
Qed.

Print Assumptions C86_events.
Print Assumptions C86_tree_refuted.
