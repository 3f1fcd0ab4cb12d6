(** Sinks that fail, sinks that do not, and data that does not fit: C29, C31, C44. *)
Require Import Coq.Lists.List Coq.NArith.NArith Coq.ZArith.ZArith Coq.Bool.Bool Coq.micromega.Lia.
Require Import Coq.Init.Byte.
Require Import ZifyBool ZifyNat ZifyN.
Require Import Verif.Base Verif.BaseFacts Verif.Utf8 Verif.Types Verif.Io Verif.IoFacts Verif.Parser Verif.Writer Verif.WriterFacts Verif.Zlib Verif.Spec Verif.SpecFacts Verif.FooterFacts Verif.WriterSpec Verif.WriterSim Verif.WriterNodes Verif.WriterTotal Verif.PropsWriter Verif.PropsRound Verif.Samples.
Import ListNotations.
Ltac Zify.zify_post_hook ::= Z.div_mod_to_equations.
Open Scope writer_scope.

(** ** C31: failures are reported *)

(** The error of a failing [write] call of the sink. *)
Definition fails_with (a : wact) (e : ioerr) : Prop :=
  match a with WZero => e = IoWriteZero | WFail c => e = IoOther c | _ => False end.

(** During a call that returned [r], the sink went from [k] to [k'].  Either none of the
    operations it was asked for failed, or exactly the last one failed, and [r] is its error. *)
Definition faithful_to {A} (k : sink) (r : res werr A) (k' : sink) : Prop :=
  exists writes seeks, k_writes k = writes ++ k_writes k' /\ k_seeks k = seeks ++ k_seeks k' /\
  ((existsb wfails writes = false /\ existsb sfails seeks = false) \/
   exists e, (r = Err (WIo e) \/ r = Err (Compression e)) /\
     ((exists w a, writes = w ++ [a] /\ fails_with a e /\ existsb wfails w = false /\ existsb sfails seeks = false) \/
      (exists w c, seeks = w ++ [Some c] /\ e = IoOther c /\ existsb sfails w = false /\ existsb wfails writes = false))).

Definition reports {A} (m : WM A) : Prop := forall s, faithful_to (w_sink s) (fst (m s)) (w_sink (snd (m s))).

Lemma faithful_refl : forall A k (r : res werr A), faithful_to k r k.
Proof. intros. exists [], []. split; [reflexivity|]. split; [reflexivity|]. left. split; reflexivity. Qed.

Lemma reports_ret : forall A (a : A), reports (wret a).
Proof. intros A a s. apply faithful_refl. Qed.
Lemma reports_throw : forall A e, reports (@wthrow A e).
Proof. intros A e s. apply faithful_refl. Qed.
Lemma reports_panic : forall A, reports (@wpanic A).
Proof. intros A s. apply faithful_refl. Qed.
Lemma reports_gets : forall A (f : wstate -> A), reports (wgets f).
Proof. intros A f s. apply faithful_refl. Qed.
Lemma reports_modify : forall f, (forall s, w_sink (f s) = w_sink s) -> reports (wmodify f).
Proof. intros f H s. cbn [wmodify fst snd]. unfold wmodify. cbn [fst snd]. rewrite H. apply faithful_refl. Qed.

Lemma reports_bind : forall A B (m : WM A) (k : A -> WM B), reports m -> (forall a, reports (k a)) -> reports (wbind m k).
Proof.
  intros A B m k Hm Hk s. specialize (Hm s). unfold wbind. destruct (m s) as [[a|e|] s1] eqn:E; cbn [fst snd] in *.
  - destruct Hm as (w1 & q1 & E1 & E2 & [[C1 C2]|(e & [X|X] & _)]); [|discriminate|discriminate].
    specialize (Hk a s1). destruct (k a s1) as [r s2]. cbn [fst snd] in *. destruct Hk as (w2 & q2 & F1 & F2 & H).
    exists (w1 ++ w2), (q1 ++ q2). rewrite E1, F1, E2, F2, !app_assoc. split; [reflexivity|]. split; [reflexivity|]. rewrite !existsb_app, C1, C2. cbn [orb].
    destruct H as [H|(e & HR & [(w & x & G1 & G2 & G3 & G4)|(w & c & G1 & G2 & G3 & G4)])]; [left; exact H| |]; right; exists e; split; auto.
    + left. exists (w1 ++ w), x. rewrite G1, app_assoc, existsb_app, C1, G3, G4. auto.
    + right. exists (q1 ++ w), c. rewrite G1, app_assoc, existsb_app, C2, G3, G4. auto.
  - destruct Hm as (w1 & q1 & E1 & E2 & H). exists w1, q1. split; [exact E1|]. split; [exact E2|].
    destruct H as [H|(e' & HR & H)]; [left; exact H|]. right. exists e'. split; [|exact H]. destruct HR as [X|X]; injection X as ->; auto.
  - destruct Hm as (w1 & q1 & E1 & E2 & H). exists w1, q1. split; [exact E1|]. split; [exact E2|].
    destruct H as [H|(e' & [X|X] & H)]; [left; exact H|discriminate|discriminate].
Qed.

Lemma wr_story : forall sc bs data pos, let '(e, _, _, sc') := wr sc bs data pos in
  exists u, sc = u ++ sc' /\
    ((existsb wfails u = false) \/ exists w a e', u = w ++ [a] /\ e = Some e' /\ fails_with a e' /\ existsb wfails w = false).
Proof.
  induction sc as [|a sc IH]; intros bs data pos.
  - destruct bs; cbn [wr]; [|destruct (_ <? _)%N]; exists []; split; auto.
  - destruct bs as [|b bs]; [cbn [wr]; exists []; split; auto|]. cbn [wr].
    assert (STEP : forall bs' data' pos', wfails a = false -> let '(e, _, _, sc') := wr sc bs' data' pos' in
      exists u, a :: sc = u ++ sc' /\ ((existsb wfails u = false) \/ exists w x e', u = w ++ [x] /\ e = Some e' /\ fails_with x e' /\ existsb wfails w = false)).
    { intros bs' data' pos' HA. specialize (IH bs' data' pos'). destruct (wr sc bs' data' pos') as [[[e d] p] sc']. destruct IH as (u & -> & H).
      exists (a :: u). split; [reflexivity|]. destruct H as [H|(w & x & e' & -> & H1 & H2 & H3)]; [left; cbn [existsb]; rewrite HA, H; reflexivity|].
      right. exists (a :: w), x, e'. split; [reflexivity|]. split; [exact H1|]. split; [exact H2|]. cbn [existsb]. rewrite HA, H3. reflexivity. }
    destruct a as [k| | |c].
    + destruct (_ <? _)%N; [apply STEP; reflexivity|]. exists [WChunk k]. split; [reflexivity|left; reflexivity].
    + apply STEP; reflexivity.
    + exists [WZero]. split; [reflexivity|]. right. exists [], WZero, IoWriteZero. repeat split.
    + exists [WFail c]. split; [reflexivity|]. right. exists [], (WFail c), (IoOther c). repeat split.
Qed.

Lemma reports_write : forall wrap bs, wrap = WIo \/ wrap = Compression -> reports (write_as wrap bs).
Proof.
  intros wrap bs HW s. unfold write_as. pose proof (wr_story (k_writes (w_sink s)) bs (k_data (w_sink s)) (k_pos (w_sink s))) as H.
  destruct (wr _ _ _ _) as [[[e d] p] sc]. cbn [fst snd w_sink set_sink k_writes k_seeks]. destruct H as (u & E & H).
  exists u, []. cbn [k_writes k_seeks w_sink set_sink]. split; [exact E|]. split; [reflexivity|]. destruct H as [H|(w & a & e' & -> & -> & H1 & H2)]; [left; auto|].
  right. exists e'. split; [destruct HW as [->| ->]; auto|]. left. exists w, a. auto.
Qed.

Lemma reports_tell : reports tell.
Proof.
  intros s. unfold tell, k_seek. destruct (k_seeks (w_sink s)) as [|[c|] sk] eqn:E; cbn [fst snd w_sink set_sink].
  - exists [], []. cbn [k_writes k_seeks]. rewrite E. split; [reflexivity|]. split; [reflexivity|]. left. auto.
  - exists [], [Some c]. cbn [k_writes k_seeks]. split; [reflexivity|]. split; [exact E|]. right. exists (IoOther c). split; [auto|]. right. exists [], c. auto.
  - exists [], [None]. cbn [k_writes k_seeks]. split; [reflexivity|]. split; [exact E|]. left. auto.
Qed.
Lemma reports_seek : forall p, reports (seek p).
Proof.
  intros p s. unfold seek, k_seek. destruct (k_seeks (w_sink s)) as [|[c|] sk] eqn:E; cbn [fst snd w_sink set_sink].
  - exists [], []. cbn [k_writes k_seeks]. rewrite E. split; [reflexivity|]. split; [reflexivity|]. left. auto.
  - exists [], [Some c]. cbn [k_writes k_seeks]. split; [reflexivity|]. split; [exact E|]. right. exists (IoOther c). split; [auto|]. right. exists [], c. auto.
  - exists [], [None]. cbn [k_writes k_seeks]. split; [reflexivity|]. split; [exact E|]. left. auto.
Qed.

Lemma sink_has_child : forall s, w_sink (set_has_child s) = w_sink s.
Proof. intros s. apply has_child_same. Qed.

Ltac rep_step :=
  match goal with
  | |- reports (wbind _ _) => apply reports_bind; [|intro]
  | |- reports (wret _) => apply reports_ret
  | |- reports (wthrow _) => apply reports_throw
  | |- reports wpanic => apply reports_panic
  | |- reports (wgets _) => apply reports_gets
  | |- reports (wmodify set_has_child) => apply reports_modify; exact sink_has_child
  | |- reports (wmodify _) => apply reports_modify; intro; reflexivity
  | |- reports (write _) => apply reports_write; left; reflexivity
  | |- reports (write_as _ _) => apply reports_write; auto
  | |- reports tell => apply reports_tell
  | |- reports (seek _) => apply reports_seek
  | |- reports (if ?b then _ else _) => destruct b
  | |- reports (wwhen ?b _) => destruct b; cbn [wwhen]
  | |- reports (match ?x with _ => _ end) => destruct x
  | |- reports (?f) => first [eassumption | let h := match f with ?h _ _ _ _ => h | ?h _ _ _ => h | ?h _ _ => h | ?h _ => h | ?h => h end in unfold h; cbv beta iota zeta]
  end.

Section WithEnv.
Context {env : Env}.

Lemma reports_each : forall wrap l, wrap = WIo \/ wrap = Compression -> reports (write_each_as wrap l).
Proof. intros wrap l HW. induction l as [|b l IH]; cbn [write_each_as]; repeat rep_step. Qed.
Lemma reports_copy : forall l n, reports (io_copy l n).
Proof. induction l as [|[[|b bs]| |c] l IH]; intros n; cbn [io_copy]; try apply IH; repeat rep_step. apply IH. Qed.
Lemma reports_chars : forall cs buf n, reports (write_chars buf cs n).
Proof. induction cs as [|c cs IH]; intros buf n; cbn [write_chars]; cbv zeta; repeat rep_step. apply IH. Qed.
Lemma reports_payload : forall e l fails, reports (match e with EncDirect => write_elements l fails | EncZlib => write_zlib l fails end).
Proof. intros e l fails. pose proof (reports_each WIo l (or_introl eq_refl)). pose proof (reports_each WIo (z_feed l) (or_introl eq_refl)).
  pose proof (reports_each Compression (z_fin l) (or_intror eq_refl)). destruct e; repeat rep_step. Qed.
Lemma reports_header : forall h, reports (write_node_header h).
Proof. intros h. repeat rep_step. Qed.

Lemma reports_new_node : forall name, reports (new_node name).
Proof. intros name. repeat rep_step. Qed.
Lemma reports_close : reports close_node.
Proof. repeat rep_step. Qed.
Lemma reports_special : forall t, reports (initialize_special t).
Proof. intros. repeat rep_step. Qed.
Lemma reports_fin_special : forall a b, reports (finalize_special a b).
Proof. intros. repeat rep_step. Qed.
Lemma reports_acall : forall c, reports (run_acall c).
Proof.
  intros [v|enc v fails|b bs|l|l fails|cs fails]; cbn [run_acall].
  - repeat rep_step.
  - unfold append_array. cbv zeta. apply reports_bind; [repeat rep_step|intro]. apply reports_bind; [apply reports_tell|intro].
    apply reports_bind; [apply reports_payload|intro]. repeat rep_step.
  - unfold append_direct. apply reports_bind; [apply reports_special|intro]. apply reports_bind; [repeat rep_step|intro]. apply reports_fin_special.
  - unfold append_binary_reader. apply reports_bind; [apply reports_special|intro]. apply reports_bind; [apply reports_copy|intro]. apply reports_fin_special.
  - unfold append_binary_iter. apply reports_bind; [apply reports_special|intro]. apply reports_bind; [apply reports_each; auto|intro]. destruct fails; [apply reports_throw|apply reports_fin_special].
  - unfold append_string_iter. apply reports_bind; [apply reports_special|intro]. apply reports_bind; [apply reports_chars|intro]. destruct fails; [apply reports_throw|apply reports_fin_special].
Qed.

(** Every call on the writer. *)
Theorem C31_failures_reported : forall s,
  (forall name, faithful_to (w_sink s) (fst (new_node name s)) (w_sink (snd (new_node name s)))) /\
  (forall c, faithful_to (w_sink s) (fst (run_acall c s)) (w_sink (snd (run_acall c s)))) /\
  faithful_to (w_sink s) (fst (close_node s)) (w_sink (snd (close_node s))) /\
  (forall fl f, faithful_to (w_sink s) (fst (finalize fl f s)) (w_sink (snd (finalize fl f s))) \/
     exists c, fl = true /\ k_flush (w_sink (snd (finalize fl f s))) = Some c /\ fst (finalize fl f s) = Err (WIo (IoOther c))).
Proof.
  intros s. split; [intros; apply reports_new_node|]. split; [intros; apply reports_acall|]. split; [apply reports_close|].
  intros fl f. assert (R : reports (finalize_impl f)) by repeat rep_step. specialize (R s). unfold finalize. unfold wbind.
  destruct (finalize_impl f s) as [[u|e|] s1] eqn:E; cbn [fst snd] in *.
  - assert (OK : faithful_to (w_sink s) (@Ok werr sink (w_sink s1)) (w_sink s1)).
    { destruct R as (w & q & H1 & H2 & [H|(e & [X|X] & _)]); [|discriminate|discriminate]. exists w, q. auto. }
    destruct fl; cbn [wwhen]; [|left; exact OK]. unfold flush. destruct (k_flush (w_sink s1)) eqn:EF; cbn [fst snd]; [right; eauto|left; exact OK].
  - left. destruct R as (w & q & H1 & H2 & [H|(e' & HR & H)]); exists w, q; (split; [exact H1|]); (split; [exact H2|]); [left; exact H|].
    right. exists e'. split; [|exact H]. destruct HR as [X|X]; injection X as ->; auto.
  - left. destruct R as (w & q & H1 & H2 & [H|(e' & [X|X] & H)]); [|discriminate|discriminate]. exists w, q. auto.
Qed.

(** [finalize] does flush if asked. *)
Theorem C31_flush_reported : forall f s k s', finalize true f s = (Ok k, s') -> k_flush (w_sink s') = None.
Proof.
  intros f s k s' H. unfold finalize, wbind in H. destruct (finalize_impl f s) as [[u|e|] s1]; try discriminate. cbn [wwhen] in H. unfold flush in H.
  destruct (k_flush (w_sink s1)) eqn:E; [discriminate|]. injection H as _ <-. exact E.
Qed.

(** Creating a writer: success means that no operation failed. *)
Theorem C31_creation_reported : forall k ver s, new_writer k ver = Ok s ->
  exists writes seeks, k_writes k = writes ++ k_writes (w_sink s) /\ k_seeks k = seeks ++ k_seeks (w_sink s) /\
    existsb wfails writes = false /\ existsb sfails seeks = false.
Proof.
  intros k ver s H. unfold new_writer in H. destruct (negb _); [discriminate|].
  assert (R : reports (seek 0;> write magic;> write (le_enc 4 ver))) by repeat rep_step. specialize (R (mkW k ver [])).
  destruct ((seek 0;> write magic;> write (le_enc 4 ver)) (mkW k ver [])) as [[u|e|] s1]; try discriminate. injection H as ->. cbn [fst snd w_sink] in R.
  destruct R as (w & q & H1 & H2 & [[H3 H4]|(e & [X|X] & _)]); [|discriminate|discriminate]. exists w, q. auto.
Qed.


(** ** C31: no panics *)

(** [m], run at or beyond position [lo], stays there, leaves the open nodes alone and does not
    panic. *)
Definition stays {A} (lo : N) (m : WM A) (s : wstate) (Q : A -> wstate -> Prop) : Prop :=
  (lo <= k_pos (w_sink s))%N ->
  (lo <= k_pos (w_sink (snd (m s))))%N /\ w_open (snd (m s)) = w_open s /\
  match fst (m s) with Ok a => Q a (snd (m s)) | Err _ => True | Panic => False end.

Lemma stays_ret : forall A lo (a : A) s (Q : A -> wstate -> Prop), Q a s -> stays lo (wret a) s Q.
Proof. intros A lo a s Q H L. auto. Qed.
Lemma stays_throw : forall A lo e s (Q : A -> wstate -> Prop), stays lo (wthrow e) s Q.
Proof. intros A lo e s Q L. cbn. auto. Qed.
Lemma stays_bind : forall A B lo (m : WM A) (k : A -> WM B) s P Q, stays lo m s P ->
  (forall a s', (lo <= k_pos (w_sink s'))%N -> P a s' -> stays lo (k a) s' Q) -> stays lo (wbind m k) s Q.
Proof.
  intros A B lo m k s P Q Hm Hk L. destruct (Hm L) as (L1 & O1 & H1). unfold wbind. destruct (m s) as [[a|e|] s1]; cbn [fst snd] in *; [|auto|contradiction].
  destruct (Hk a s1 L1 H1 L1) as (L2 & O2 & H2). destruct (k a s1) as [r s2]. cbn [fst snd] in *. rewrite O2, O1. auto.
Qed.
Lemma stays_imp : forall A lo lo' (m : WM A) s (P Q : A -> wstate -> Prop), stays lo' m s P -> (lo <= lo')%N -> (lo' <= k_pos (w_sink s))%N ->
  (forall a s', (lo' <= k_pos (w_sink s'))%N -> P a s' -> Q a s') -> stays lo m s Q.
Proof.
  intros A lo lo' m s P Q H L1 L2 K L. destruct (H L2) as (A1 & A2 & A3). split; [lia|]. split; [exact A2|]. destruct (fst (m s)); auto.
Qed.

Lemma wr_mono : forall sc bs data pos, let '(_, _, p, _) := wr sc bs data pos in (pos <= p)%N.
Proof.
  induction sc as [|a sc IH]; intros bs data pos.
  - destruct bs; cbn [wr]; [lia|]. destruct (_ <? _)%N; lia.
  - destruct bs as [|b bs]; cbn [wr]; [lia|]. destruct a as [k| | |c]; [|apply IH|lia|lia]. destruct (_ <? _)%N; [|lia].
    match goal with |- context [wr sc ?x ?y ?z] => specialize (IH x y z); destruct (wr sc x y z) as [[[? ?] ?] ?] end. lia.
Qed.
Lemma stays_write : forall lo wrap bs s, stays lo (write_as wrap bs) s (fun _ s' => True).
Proof.
  intros lo wrap bs s L. unfold write_as. pose proof (wr_mono (k_writes (w_sink s)) bs (k_data (w_sink s)) (k_pos (w_sink s))) as H.
  destruct (wr _ _ _ _) as [[[e d] p] sc]. cbn [fst snd w_sink set_sink k_pos w_open]. split; [lia|]. split; [reflexivity|]. destruct e; exact I.
Qed.
Lemma stays_tell : forall lo s, stays lo tell s (fun p s' => p = k_pos (w_sink s') /\ (lo <= p)%N).
Proof.
  intros lo s L. unfold tell, k_seek. destruct (k_seeks (w_sink s)) as [|[c|] sk]; cbn [fst snd w_sink set_sink k_pos w_open]; auto.
Qed.
Lemma stays_seek : forall lo p s, (lo <= p)%N -> stays lo (seek p) s (fun _ s' => True).
Proof.
  intros lo p s HP L. unfold seek, k_seek. destruct (k_seeks (w_sink s)) as [|[c|] sk]; cbn [fst snd w_sink set_sink k_pos w_open]; auto.
Qed.

Lemma stays_each : forall lo wrap l s, stays lo (write_each_as wrap l) s (fun _ _ => True).
Proof.
  intros lo wrap. induction l as [|b l IH]; intros s; [apply stays_ret; auto|]. cbn [write_each_as]. eapply stays_bind; [apply stays_write|]. intros _ s1 _ _. apply IH.
Qed.
Lemma stays_copy : forall lo l n s, stays lo (io_copy l n) s (fun _ _ => True).
Proof.
  intros lo l. induction l as [|[[|b bs]| |c] l IH]; intros n s; cbn [io_copy]; try (apply stays_ret; exact I); try apply IH; [|apply stays_throw].
  eapply stays_bind; [apply stays_write|]. intros _ s1 _ _. apply IH.
Qed.
Lemma stays_chars : forall lo cs buf n s, stays lo (write_chars buf cs n) s (fun _ _ => True).
Proof.
  intros lo cs. induction cs as [|c cs IH]; intros buf n s; cbn [write_chars]; [apply stays_ret; exact I|]. cbv zeta.
  eapply stays_bind; [apply stays_write|]. intros _ s1 _ _. apply IH.
Qed.
Lemma stays_count : forall lo n s, stays lo (count_elements n) s (fun _ _ => True).
Proof. intros lo n s. unfold count_elements. destruct (_ <? _)%N; [apply stays_ret; exact I|apply stays_throw]. Qed.
Lemma stays_payload : forall lo e l fails s, stays lo (match e with EncDirect => write_elements l fails | EncZlib => write_zlib l fails end) s (fun _ _ => True).
Proof.
  intros lo e l fails s. destruct e; unfold write_elements, write_zlib.
  - eapply stays_bind; [apply stays_each|]. intros _ s1 _ _. destruct fails; [apply stays_throw|apply stays_count].
  - eapply stays_bind; [apply stays_each|]. intros _ s1 _ _. destruct fails; [apply stays_throw|].
    eapply stays_bind; [apply stays_count|]. intros c s2 _ _. eapply stays_bind; [apply stays_each|]. intros _ s3 _ _. apply stays_ret; exact I.
Qed.
Lemma stays_array_header : forall lo c e b s, stays lo (write_array_header c e b) s (fun _ _ => True).
Proof.
  intros. unfold write_array_header. eapply stays_bind; [apply stays_write|]. intros _ s1 _ _. eapply stays_bind; [apply stays_write|]. intros _ s2 _ _. apply stays_write.
Qed.
Lemma stays_fin_special : forall lo hp n s, (lo <= hp)%N -> stays lo (finalize_special hp n) s (fun _ _ => True).
Proof.
  intros lo hp n s L. unfold finalize_special. destruct (_ <? _)%N; [|apply stays_throw]. eapply stays_bind; [apply stays_tell|]. intros q s1 _ [_ LQ].
  eapply stays_bind; [apply stays_seek; exact L|]. intros _ s2 _ _. eapply stays_bind; [apply stays_write|]. intros _ s3 _ _. apply stays_seek; exact LQ.
Qed.

(** What follows the type code of an attribute. *)
Definition after_code (c : acall) : WM unit :=
  match c with
  | ASingle v => write (single_bytes v)
  | AArray enc v fails =>
      let encoding := match enc with Some e => e | None => EncDirect end in
      let! header_pos := tell in
      write_array_header 0 encoding 0 ;>
      let! start_pos := tell in
      let! count := match encoding with EncDirect => write_elements (elems_bytes v) fails | EncZlib => write_zlib (elems_bytes v) fails end in
      let! end_pos := tell in
      let! bytelen := sub_u64 end_pos start_pos in
      if (bytelen <? pow2_32)%N then finalize_array header_pos count encoding bytelen else wthrow (AttributeTooLong bytelen)
  | ADirect b bs => let! hp := tell in write (le_enc 4 0) ;> write bs ;> finalize_special hp (lenN bs)
  | ABinReader l => let! hp := tell in write (le_enc 4 0) ;> let! len := io_copy l 0 in finalize_special hp len
  | ABinIter l fails => let! hp := tell in write (le_enc 4 0) ;> write_each (map (fun b => [b]) l) ;> if fails then wthrow UserDefined else finalize_special hp (lenN l)
  | AStrIter cs fails => let! hp := tell in write (le_enc 4 0) ;> let! len := write_chars (zeros 4) cs 0 in if fails then wthrow UserDefined else finalize_special hp len
  end.
Definition code_of (c : acall) : atype :=
  match c with
  | ASingle v => single_type v | AArray _ v _ => elems_type v
  | ADirect b _ => if b then TString else TBinary
  | ABinReader _ | ABinIter _ _ => TBinary
  | AStrIter _ _ => TString
  end.
Lemma acall_split : forall c s, run_acall c s = (update_node_header ;> write_type_code (code_of c) ;> after_code c) s.
Proof.
  intros c s. destruct c; cbn [run_acall code_of after_code]; unfold append_single, append_array, append_direct, append_binary_reader, append_binary_iter, append_string_iter, initialize_special, initialize_array; cbv zeta;
    unfold wbind; destruct (update_node_header s) as [[u|e|] s1]; try reflexivity; destruct (write_type_code _ s1) as [[u1|e1|] s2]; try reflexivity;
    destruct (tell s2) as [[u2|e2|] s3]; try reflexivity; unfold wret; try destruct (write _ s3) as [[u3|e3|] s4]; try reflexivity; destruct (write_array_header _ _ _ s3) as [[u3|e3|] s4]; reflexivity.
Qed.

Lemma after_code_stays : forall lo c s, stays lo (after_code c) s (fun _ _ => True).
Proof.
  intros lo c s. destruct c as [v|enc v fails|b bs|l|l fails|cs fails]; cbn [after_code].
  - apply stays_write.
  - cbv zeta. eapply stays_bind; [apply stays_tell|]. intros hp s1 _ [_ LH]. eapply stays_bind; [apply stays_array_header|]. intros _ s2 _ _.
    eapply stays_bind; [apply stays_tell|]. intros st s3 L3 [E3 LS].
    (* from here on, at or beyond the start of the elements *)
    intros L0. assert (K : stays st (let! count := match (match enc with Some e => e | None => EncDirect end) with EncDirect => write_elements (elems_bytes v) fails | EncZlib => write_zlib (elems_bytes v) fails end in
      let! end_pos := tell in let! bytelen := sub_u64 end_pos st in wret (count, bytelen)) s3 (fun _ _ => True)).
    { eapply stays_bind; [apply stays_payload|]. intros c s4 _ _. eapply stays_bind; [apply stays_tell|]. intros q s5 _ [_ LQ].
      eapply stays_bind; [|intros; apply stays_ret; exact I]. unfold sub_u64. replace (st <=? q)%N with true by lia. apply stays_ret with (Q := fun _ _ => True). exact I. }
    assert (LS3 : (st <= k_pos (w_sink s3))%N) by lia.
    assert (K2 : stays lo (wbind (let! count := match (match enc with Some e => e | None => EncDirect end) with EncDirect => write_elements (elems_bytes v) fails | EncZlib => write_zlib (elems_bytes v) fails end in
      let! end_pos := tell in let! bytelen := sub_u64 end_pos st in wret (count, bytelen)) (fun '(count, bytelen) =>
        if (bytelen <? pow2_32)%N then finalize_array hp count (match enc with Some e => e | None => EncDirect end) bytelen else wthrow (AttributeTooLong bytelen))) s3 (fun _ _ => True)).
    { eapply stays_bind; [eapply stays_imp; [exact K|exact LS|exact LS3|intros; exact I]|]. intros [c b] s4 _ _. destruct (_ <? _)%N; [|apply stays_throw].
      unfold finalize_array. eapply stays_bind; [apply stays_tell|]. intros q s5 _ [_ LQ]. eapply stays_bind; [apply stays_seek; exact LH|]. intros _ s6 _ _.
      eapply stays_bind; [apply stays_array_header|]. intros _ s7 _ _. apply stays_seek; exact LQ. }
    specialize (K2 L0). clear K. revert K2. unfold wbind, wret.
    destruct (match (match enc with Some e => e | None => EncDirect end) with EncDirect => write_elements (elems_bytes v) fails | EncZlib => write_zlib (elems_bytes v) fails end s3) as [[c|e|] s4]; cbn [fst snd]; auto.
    destruct (tell s4) as [[q|e|] s5]; cbn [fst snd]; auto. destruct (sub_u64 q st s5) as [[b|e|] s6]; cbn [fst snd]; auto.
  - eapply stays_bind; [apply stays_tell|]. intros hp s1 _ [_ LH]. eapply stays_bind; [apply stays_write|]. intros _ s2 _ _. eapply stays_bind; [apply stays_write|]. intros _ s3 _ _. apply stays_fin_special; exact LH.
  - eapply stays_bind; [apply stays_tell|]. intros hp s1 _ [_ LH]. eapply stays_bind; [apply stays_write|]. intros _ s2 _ _. eapply stays_bind; [apply stays_copy|]. intros n s3 _ _. apply stays_fin_special; exact LH.
  - eapply stays_bind; [apply stays_tell|]. intros hp s1 _ [_ LH]. eapply stays_bind; [apply stays_write|]. intros _ s2 _ _. eapply stays_bind; [apply stays_each|]. intros _ s3 _ _. destruct fails; [apply stays_throw|apply stays_fin_special; exact LH].
  - eapply stays_bind; [apply stays_tell|]. intros hp s1 _ [_ LH]. eapply stays_bind; [apply stays_write|]. intros _ s2 _ _. eapply stays_bind; [apply stays_chars|]. intros n s3 _ _. destruct fails; [apply stays_throw|apply stays_fin_special; exact LH].
Qed.

(** The invariant: the attribute lengths already known are zero exactly if there are no
    attributes, and the innermost node's attributes take space exactly if there are any. *)
Definition settled (n : onode) : Prop := on_finalized n = true /\ (nh_attrs (on_header n) = 0 <-> nh_alen (on_header n) = 0)%N.
Definition top_settled (pos : N) (n : onode) : Prop :=
  if on_finalized n then (nh_attrs (on_header n) = 0 <-> nh_alen (on_header n) = 0)%N
  else (on_body_pos n <= pos)%N /\ (nh_attrs (on_header n) = 0 <-> pos = on_body_pos n)%N.
Definition settled_all (s : wstate) : Prop :=
  match w_open s with [] => True | n :: t => top_settled (k_pos (w_sink s)) n /\ Forall settled t end.

Lemma k_pos_tell : forall s, k_pos (w_sink (snd (tell s))) = k_pos (w_sink s) /\ w_open (snd (tell s)) = w_open s /\
  match fst (tell s) with Ok p => p = k_pos (w_sink s) | Err _ => True | Panic => False end.
Proof. intros s. unfold tell, k_seek. destruct (k_seeks (w_sink s)) as [|[c|] sk]; cbn; auto. Qed.

Lemma finalize_attributes_settled : forall s, settled_all s ->
  let '(r, s') := finalize_attributes s in settled_all s' /\ r <> Panic /\ (r = Ok tt -> top_done s').
Proof.
  intros s H. unfold finalize_attributes, wbind, wgets. destruct (w_open s) as [|n t] eqn:EO.
  - cbn [wret]. unfold wret. split; [exact H|]. split; [discriminate|]. intros _. unfold top_done. rewrite EO. exact I.
  - destruct (on_finalized n) eqn:EF.
    + unfold wret. split; [exact H|]. split; [discriminate|]. intros _. unfold top_done. rewrite EO. exact EF.
    + destruct (k_pos_tell s) as (P & O & R). destruct (tell s) as [[p|e|] s1]; cbn [fst snd] in *; [|split; [|split; [discriminate|intros; discriminate]]|contradiction].
      * unfold settled_all in H. rewrite EO in H. destruct H as [HT HF]. unfold top_settled in HT. rewrite EF in HT. destruct HT as [HB HZ].
        unfold sub_u64. rewrite R. replace (on_body_pos n <=? k_pos (w_sink s))%N with true by lia. unfold wret, wmodify. split; [|split; [discriminate|reflexivity]].
        unfold settled_all, set_open. cbn [w_open]. split; [|exact HF]. unfold top_settled. cbn [on_finalized on_header nh_attrs nh_alen]. rewrite HZ. lia.
      * unfold settled_all in *. rewrite O, EO, P in *. exact H.
Qed.

(** The calls on a [Writer], after any history that kept the invariant. *)
Lemma new_node_settled : forall name s, settled_all s ->
  let '(r, s') := new_node name s in settled_all s' /\ r <> Panic /\ (r = Ok tt -> match w_open s' with [] => False | n :: _ => on_finalized n = false end).
Proof.
  intros name s H. destruct (new_node name s) as [r s'] eqn:EN. assert (FR : r = Ok tt -> match w_open s' with [] => False | n :: _ => on_finalized n = false end) by (intros ->; eapply new_node_fresh; eauto).
  cut (settled_all s' /\ r <> Panic); [intros []; auto|]. clear FR. revert EN.
  unfold new_node. pose proof (finalize_attributes_settled s H) as F. unfold wbind at 1. destruct (finalize_attributes s) as [[[]|e|] s1]; destruct F as (F1 & F2 & F3).
  2:{ injection 1 as <- <-. split; [exact F1|discriminate]. }
  2:{ contradiction. }
  specialize (F3 eq_refl). unfold wbind at 1. cbn [wmodify]. unfold wmodify. set (s2 := set_has_child s1).
  assert (H2 : match w_open s2 with [] => True | n :: t => on_finalized n = true /\ settled n /\ Forall settled t end).
  { unfold s2, set_has_child, top_done, settled_all in *. destruct (w_open s1) as [|n t] eqn:EO; [rewrite EO; exact I|]. cbn [w_open set_open]. destruct F1 as [T1 T2]. unfold top_settled in T1. rewrite F3 in T1.
    split; [exact F3|]. split; [split; [exact F3|exact T1]|exact T2]. }
  assert (SET : forall s3, w_open s3 = w_open s2 -> settled_all s3).
  { intros s3 E. unfold settled_all. rewrite E. destruct (w_open s2) as [|n t]; [exact I|]. destruct H2 as (A & (_ & B) & C). split; [|exact C]. unfold top_settled. rewrite A. exact B. }
  destruct (negb _); [injection 1 as <- <-; split; [apply SET; reflexivity|discriminate]|].
  assert (SAME : forall A (m : WM A) s0, stays 0 m s0 (fun _ _ => True) -> w_open (snd (m s0)) = w_open s0 /\ fst (m s0) <> Panic).
  { intros A m s0 K. destruct (K ltac:(lia)) as (_ & O & P). split; [exact O|]. destruct (fst (m s0)); [discriminate|discriminate|contradiction]. }
  destruct (k_pos_tell s2) as (P & O & R). unfold wbind at 1. destruct (tell s2) as [[hp|e|] s3]; cbn [fst snd] in *; [|injection 1 as <- <-; split; [apply SET; exact O|discriminate]|contradiction].
  set (h := mkNH 0 0 0 (Nb (lenN name))).
  assert (KH : stays 0 (write_node_header h) s3 (fun _ _ => True)).
  { unfold write_node_header. eapply stays_bind with (P := fun _ _ => True); [intros L; cbn; auto|]. intros v s4 _ _. unfold write_u32.
    eapply stays_bind with (P := fun _ _ => True); [|intros _ s5 _ _; apply stays_write].
    destruct (v <? 7500)%N; (eapply stays_bind with (P := fun _ _ => True); [|intros _ s5 _ _; eapply stays_bind with (P := fun _ _ => True); [|intros _ s6 _ _]]);
      repeat match goal with |- stays _ (if ?b then _ else _) _ _ => destruct b end; first [apply stays_write|apply stays_throw]. }
  destruct (SAME _ _ _ KH) as [O4 P4]. unfold wbind at 1. destruct (write_node_header h s3) as [[u|e|] s4]; cbn [fst snd] in *; [|injection 1 as <- <-; split; [apply SET; congruence|discriminate]|contradiction].
  destruct (SAME _ _ _ (stays_write 0 WIo name s4)) as [O5 P5]. unfold wbind at 1. unfold write. destruct (write_as WIo name s4) as [[u5|e|] s5]; cbn [fst snd] in *; [|injection 1 as <- <-; split; [apply SET; congruence|discriminate]|contradiction].
  destruct (k_pos_tell s5) as (P6 & O6 & R6). unfold wbind at 1. destruct (tell s5) as [[bp|e|] s6]; cbn [fst snd] in *; [|injection 1 as <- <-; split; [apply SET; congruence|discriminate]|contradiction].
  injection 1 as <- <-. split; [|discriminate]. unfold settled_all, set_open. cbn [w_open w_sink]. split.
  - unfold top_settled. cbn [on_finalized on_body_pos on_header nh_attrs]. rewrite R6, P6. split; [lia|]. cbn. split; auto.
  - assert (EO : w_open s6 = w_open s2) by congruence. rewrite EO. destruct (w_open s2) as [|n t]; [constructor|]. destruct H2 as (_ & B & C). constructor; auto.
Qed.

Lemma close_node_settled : forall s, settled_all s -> let '(r, s') := close_node s in settled_all s' /\ r <> Panic.
Proof.
  intros s H. unfold close_node. pose proof (finalize_attributes_settled s H) as F. unfold wbind at 1. destruct (finalize_attributes s) as [[[]|e|] s1]; destruct F as (F1 & F2 & F3).
  2:{ split; [exact F1|discriminate]. }
  2:{ contradiction. }
  specialize (F3 eq_refl). unfold wbind at 1. cbn [wgets]. unfold wgets. unfold top_done, settled_all in *. destruct (w_open s1) as [|n t] eqn:EO.
  { unfold wthrow. rewrite EO. split; [exact I|discriminate]. }
  destruct F1 as [T1 T2]. unfold top_settled in T1. rewrite F3 in T1. unfold wbind at 1. cbn [wmodify]. unfold wmodify. set (s2 := set_open t s1).
  assert (HN : forall h s0, stays 0 (write_node_header h) s0 (fun _ _ => True)).
  { intros h s0. unfold write_node_header. eapply stays_bind with (P := fun _ _ => True); [intros L; cbn; auto|]. intros v s4 _ _. unfold write_u32.
    eapply stays_bind with (P := fun _ _ => True); [|intros _ s5 _ _; apply stays_write].
    destruct (v <? 7500)%N; (eapply stays_bind with (P := fun _ _ => True); [|intros _ s5 _ _; eapply stays_bind with (P := fun _ _ => True); [|intros _ s6 _ _]]);
      repeat match goal with |- stays _ (if ?b then _ else _) _ _ => destruct b end; first [apply stays_write|apply stays_throw]. }
  match goal with |- let '(r, s') := ?m s2 in _ => assert (K : stays 0 m s2 (fun _ _ => True)) end.
  { eapply stays_bind with (P := fun _ _ => True); [destruct (_ || _); cbn [wwhen]; [apply HN|apply stays_ret; exact I]|]. intros _ s3 _ _.
    eapply stays_bind; [apply stays_tell|]. intros q s4 _ _. eapply stays_bind; [apply stays_seek; lia|]. intros _ s5 _ _.
    replace (Bool.eqb _ _) with true; [|symmetry; apply Bool.eqb_true_iff; destruct (N.eqb_spec (nh_attrs (on_header n)) 0), (N.eqb_spec (nh_alen (on_header n)) 0); tauto].
    eapply stays_bind; [apply HN|]. intros _ s6 _ _. apply stays_seek; lia. }
  destruct (K ltac:(lia)) as (_ & O & P). match goal with |- let '(r, s') := ?m in _ => destruct m as [r s'] end. cbn [fst snd] in *.
  split; [|destruct r; [discriminate|discriminate|contradiction]]. rewrite O. change (w_open s2) with t. destruct t as [|m t']; [exact I|].
  apply Forall_cons_iff in T2. destruct T2 as [[B C] D]. split; [|exact D]. unfold top_settled. rewrite B. exact C.
Qed.

(** An attribute call keeps the invariant unless the sink (or the compressor) failed. *)
Definition sink_error {A} (r : res werr A) : Prop := exists e, r = Err (WIo e) \/ r = Err (Compression e).

Lemma acall_settled : forall c s, settled_all s -> match w_open s with [] => False | n :: _ => on_finalized n = false end ->
  let '(r, s') := run_acall c s in r <> Panic /\ (~ sink_error r -> settled_all s' /\ match w_open s' with [] => False | n :: _ => on_finalized n = false end).
Proof.
  intros c s H HO. rewrite acall_split. unfold settled_all in H. destruct (w_open s) as [|n t] eqn:EO; [contradiction|]. destruct H as [HT HF]. unfold top_settled in HT. rewrite HO in HT. destruct HT as [HB HZ].
  unfold wbind at 1. unfold update_node_header, wbind at 1, wgets. rewrite EO.
  destruct (_ <? _)%N; [|unfold wthrow; split; [discriminate|]; intros _; unfold settled_all; rewrite EO; split; [|exact HO]; split; [|exact HF]; unfold top_settled; rewrite HO; auto].
  unfold wmodify. set (n' := mkON _ _ _ _ _). set (s1 := set_open (n' :: t) s).
  unfold wbind at 1. unfold write_type_code, write.
  (* one byte: it is written or the call fails *)
  destruct (stays_write (k_pos (w_sink s1)) WIo [type_code (code_of c)] s1 ltac:(lia)) as (L2 & O2 & R2).
  assert (ST : match write_as WIo [type_code (code_of c)] s1 with (Ok _, s2) => (k_pos (w_sink s1) + 1 <= k_pos (w_sink s2))%N | (Err e, _) => exists io, e = WIo io | (Panic, _) => False end).
  { unfold write_as. assert (W : forall sc pos data, let '(e, _, p, _) := wr sc [type_code (code_of c)] data pos in match e with None => p = (pos + 1)%N | Some _ => True end).
    { induction sc as [|a sc IH]; intros pos data; cbn [wr]; [destruct (_ <? _)%N; [reflexivity|exact I]|]. destruct a as [k| | |code]; [|apply IH|exact I|exact I].
      destruct (_ <? _)%N; [|exact I]. destruct (Pos.to_nat k) as [|m] eqn:EK; [lia|]. cbn [firstn skipn]. replace (skipn m []) with (@nil byte) by (destruct m; reflexivity). replace (firstn m []) with (@nil byte) by (destruct m; reflexivity).
      destruct sc; cbn [wr]; reflexivity. }
    specialize (W (k_writes (w_sink s1)) (k_pos (w_sink s1)) (k_data (w_sink s1))). destruct (wr _ _ _ _) as [[[[e|] d] p] sc]; [eauto|]. cbn [w_sink set_sink k_pos]. lia. }
  destruct (write_as WIo [type_code (code_of c)] s1) as [[u|e|] s2]; cbn [fst snd] in *; [|split; [discriminate|]; destruct ST as (io & ->); intros X; exfalso; apply X; exists io; auto|contradiction].
  change (k_pos (w_sink s1)) with (k_pos (w_sink s)) in *.
  destruct (after_code_stays (k_pos (w_sink s) + 1) c s2 ST) as (L3 & O3 & R3). destruct (after_code c s2) as [r s3]. cbn [fst snd] in *.
  split; [destruct r; [discriminate|discriminate|contradiction]|]. intros _. assert (E3 : w_open s3 = n' :: t) by (rewrite O3, O2; reflexivity).
  unfold settled_all. rewrite E3. cbn [n' on_finalized]. split; [|exact HO]. split; [|exact HF]. unfold top_settled, n'. cbn [on_finalized on_body_pos on_header nh_attrs]. rewrite HO.
  split; [lia|]. split; lia.
Qed.

(** The results of the attribute calls of a history. *)
Fixpoint attribute_results (l : list wcall) (s : wstate) : list (res werr unit) :=
  match l with
  | [] => []
  | CClose :: l' => attribute_results l' (snd (run_wcall CClose s))
  | CNode name attrs :: l' =>
      match new_node name s with
      | (Ok tt, s') => fst (run_acalls attrs s')
      | _ => []
      end ++ attribute_results l' (snd (run_wcall (CNode name attrs) s))
  end.

Lemma acalls_settled : forall l s rs s', settled_all s -> match w_open s with [] => False | n :: _ => on_finalized n = false end ->
  run_acalls l s = (rs, s') -> Forall (fun r => ~ sink_error r) rs -> settled_all s' /\ Forall (fun r => r <> Panic) rs.
Proof.
  induction l as [|c l IH]; intros s rs s' H HO E F; [injection E as <- <-; auto|].
  cbn [run_acalls] in E. pose proof (acall_settled c s H HO) as K. destruct (run_acall c s) as [[u|e|] s1]; destruct K as [K1 K2]; [| |contradiction].
  - destruct (run_acalls l s1) as [rs' s2] eqn:E2. injection E as <- <-. apply Forall_cons_iff in F. destruct F as [F1 F2]. destruct (K2 F1) as [K3 K4].
    destruct (IH _ _ _ K3 K4 E2 F2) as [X Y]. split; [exact X|constructor; auto].
  - destruct (run_acalls l s1) as [rs' s2] eqn:E2. injection E as <- <-. apply Forall_cons_iff in F. destruct F as [F1 F2]. destruct (K2 F1) as [K3 K4].
    destruct (IH _ _ _ K3 K4 E2 F2) as [X Y]. split; [exact X|constructor; auto].
Qed.

Lemma history_settled : forall l s rs s', settled_all s -> run_wcalls l s = (rs, s') -> Forall (fun r => ~ sink_error r) (attribute_results l s) ->
  settled_all s' /\ Forall (fun r => r <> Panic) rs.
Proof.
  induction l as [|c l IH]; intros s rs s' H E F; [injection E as <- <-; auto|].
  assert (K : let '(r0, s0) := run_wcall c s in settled_all s0 /\ Forall (fun r => r <> Panic) r0 /\ Forall (fun r => ~ sink_error r) (attribute_results l s0)).
  { destruct c as [name attrs|]; cbn [attribute_results run_wcall] in *.
    - pose proof (new_node_settled name s H) as N. destruct (new_node name s) as [[[]|e|] s1]; destruct N as (N1 & N2 & N3); [| |contradiction].
      + destruct (run_acalls attrs s1) as [r1 s2] eqn:E1. cbn [fst snd] in F. apply Forall_app in F. destruct F as [F1 F2].
        destruct (acalls_settled _ _ _ _ N1 (N3 eq_refl) E1 F1) as [X Y]. split; [exact X|]. split; [constructor; [discriminate|exact Y]|exact F2].
      + split; [exact N1|]. split; [repeat constructor; discriminate|exact F].
    - pose proof (close_node_settled s H) as N. destruct (close_node s) as [r s1]. destruct N as [N1 N2]. split; [exact N1|]. split; [repeat constructor; exact N2|exact F]. }
  cbn [run_wcalls] in E. destruct (run_wcall c s) as [r0 s0]. destruct K as (K1 & K2 & K3). destruct (existsb is_panic r0) eqn:EP.
  { exfalso. apply existsb_exists in EP. destruct EP as (r & HI & HP). rewrite Forall_forall in K2. specialize (K2 _ HI). destruct r; [discriminate|discriminate|contradiction]. }
  destruct (run_wcalls l s0) as [r1 s1] eqn:E1. injection E as <- <-. destruct (IH _ _ _ K1 E1 K3) as [X Y]. split; [exact X|apply Forall_app; auto].
Qed.

(** Whatever the sink does and whatever is called, also after errors: no call panics, provided
    no attribute call has failed with an I/O error.  (Missing from the full C31: the calls
    after such a failure, for which it is false, see [C31_refuted].) *)
Theorem C31_no_panic_partial : forall k ver l s rs s', new_writer k ver = Ok s -> run_wcalls l s = (rs, s') ->
  Forall (fun r => ~ sink_error r) (attribute_results l s) ->
  Forall (fun r => r <> Panic) rs /\ forall fl f, fst (finalize fl f s') <> Panic.
Proof.
  intros k ver l s rs s' H E F. destruct (history_settled l s rs s') as [X Y]; auto.
  { unfold new_writer in H. destruct (negb _); [discriminate|]. destruct ((seek 0;> write magic;> write (le_enc 4 ver)) (mkW k ver [])) as [[u|e|] s0] eqn:E0; try discriminate. injection H as ->.
    assert (K : stays 0 (seek 0;> write magic;> write (le_enc 4 ver)) (mkW k ver []) (fun _ _ => True)).
    { eapply stays_bind; [apply stays_seek; lia|]. intros _ s1 _ _. eapply stays_bind; [apply stays_write|]. intros _ s2 _ _. apply stays_write. }
    destruct (K ltac:(lia)) as (_ & O & _). rewrite E0 in O. cbn [snd w_open] in O. unfold settled_all. rewrite O. exact I. }
  split; [exact Y|]. intros fl f. unfold finalize. destruct ((finalize_impl f;> wwhen fl flush) s') as [[u|e|] s1] eqn:EF; try discriminate. exfalso. revert EF.
  unfold finalize_impl, wbind, wgets. destruct (w_open s') as [|n t]; [|discriminate]. intros EF.
  assert (HN : forall h s0, stays 0 (write_node_header h) s0 (fun _ _ => True)).
  { intros h s0. unfold write_node_header. eapply stays_bind with (P := fun _ _ => True); [intros L; cbn; auto|]. intros v s4 _ _. unfold write_u32.
    eapply stays_bind with (P := fun _ _ => True); [|intros _ s5 _ _; apply stays_write].
    destruct (v <? 7500)%N; (eapply stays_bind with (P := fun _ _ => True); [|intros _ s5 _ _; eapply stays_bind with (P := fun _ _ => True); [|intros _ s6 _ _]]);
      repeat match goal with |- stays _ (if ?b then _ else _) _ _ => destruct b end; first [apply stays_write|apply stays_throw]. }
  match type of EF with (match (match ?m with _ => _ end) with _ => _ end) = _ => idtac end.
  assert (K : stays 0 ((write_node_header node_end ;> write (wf_field1 f) ;>
      let! len := match wf_padding f with PadDefault => let! cur := tell in wret (N.land ((pow2_64 - cur) mod pow2_64) 15) | PadForced n => wret (bN n) end in
      write (zeros (N.to_nat len)) ;> write (wf_field2 f) ;> (let! ver := wgets w_ver in write (le_enc 4 ver)) ;> write (zeros 120) ;> write (wf_field3 f)) ;> wwhen fl flush) s' (fun _ _ => True)).
  { eapply stays_bind with (P := fun _ _ => True).
    - eapply stays_bind; [apply HN|]. intros _ a _ _. eapply stays_bind; [apply stays_write|]. intros _ b _ _.
      eapply stays_bind with (P := fun _ _ => True). { destruct (wf_padding f); [|apply stays_ret; exact I]. eapply stays_bind; [apply stays_tell|]. intros; apply stays_ret; exact I. }
      intros len c _ _. eapply stays_bind; [apply stays_write|]. intros _ d _ _. eapply stays_bind; [apply stays_write|]. intros _ e _ _.
      eapply stays_bind with (P := fun _ _ => True). { eapply stays_bind with (P := fun _ _ => True); [intros L; cbn; auto|]. intros v g _ _. apply stays_write. }
      intros _ g _ _. eapply stays_bind; [apply stays_write|]. intros _ h _ _. apply stays_write.
    - intros _ a _ _. destruct fl; cbn [wwhen]; [|apply stays_ret; exact I]. intros L. unfold flush. destruct (k_flush (w_sink a)); cbn [fst snd]; auto. }
  destruct (K ltac:(lia)) as (_ & _ & P). revert P EF. unfold wbind, wgets. intros P EF. rewrite EF in P. exact P.
Qed.


(** ** C29: sizes that do not fit *)

(** The innermost open node, if it were closed now, would end here. *)
Definition end_if_closed (ver : N) (d : odoc) : N :=
  match od_frames d with
  | [] => 0
  | f :: _ => lenN (enc_open ver d) + (if needs_marker (of_atts f) (of_kids f) then header_size ver else 0)
  end%N.

Lemma close_end : forall ver f t ns, lenN (enc_open ver (close_open (mkOD ns (f :: t)))) = end_if_closed ver (mkOD ns (f :: t)).
Proof.
  intros ver f t ns. unfold close_open. cbn [od_frames od_nodes]. rewrite add_node_len. unfold end_if_closed, enc_open. cbn [od_frames od_nodes enc_frames].
  rewrite lenN_app, enc_frame_len. unfold frame_node. rewrite node_size_eq. unfold marker_size. lia.
Qed.

(** A node that would end beyond the 32-bit range is never closed successfully, whatever the
    sink does; on a sink that does not fail, the result is [FileTooLarge]. *)
Theorem C29_node_too_large : forall k ver l s, wrote k ver l s ->
  let e := end_if_closed ver (doc_calls l odoc_start) in
  (ver < 7500)%N -> (pow2_32 <= e)%N ->
  fst (close_node s) <> Ok tt /\ (wgood (w_sink s) -> (e < pow2_63)%N -> fst (close_node s) = Err (FileTooLarge e)).
Proof.
  intros k ver l s H e HV HE. destruct (wrote_rel _ _ _ _ H) as [R _]. set (d := doc_calls l odoc_start) in *.
  assert (ED : exists f t, od_frames d = f :: t) by (unfold e, end_if_closed in HE; destruct (od_frames d) as [|f t]; [unfold pow2_32 in HE; lia|eauto]).
  destruct ED as (f & t & ED). destruct d as [ns fs]. cbn [od_frames] in ED. subst fs. split.
  - intros X. destruct (close_node s) as [r s'] eqn:EC. cbn [fst] in X. subst r. destruct (close_node_ok _ _ _ _ _ EC R) as (_ & _ & U). rewrite close_end in U. fold e in U.
    unfold width in U. replace (ver <? 7500)%N with true in U by lia. unfold u_ok in U. change (2 ^ (8 * N.of_nat 4))%N with pow2_32 in U. lia.
  - intros G LE. apply (close_too_large _ _ _ _ _ _ G R eq_refl LE HV HE).
Qed.

(** The same for attributes whose length or number of elements does not fit. *)
Theorem C29_long_attribute_never_ok : forall k ver l s c a, wrote k ver l s -> acall_typed c -> faithful c ->
  attr_of c = Some a -> ~ attr_fits a -> fst (run_acall c s) <> Ok tt.
Proof.
  intros k ver l s c a H HT HF HA HN X. destruct (wrote_rel _ _ _ _ H) as [[_ RA _ _ _ _] _]. destruct (run_acall c s) as [r s'] eqn:E. cbn [fst] in X. subst r.
  destruct (acall_ok _ _ _ _ _ _ HT HF E RA) as (a' & EA & _ & _ & F). congruence.
Qed.

(** The number of attributes is far from overflowing as long as the file is. *)
Lemma attrs_bound : forall l, (lenN l <= lenN (enc_attrs l))%N.
Proof.
  induction l as [|a l IH]; [unfold enc_attrs; cbn; lia|]. unfold enc_attrs. cbn [flat_map]. rewrite lenN_cons, lenN_app. unfold enc_attr at 1. rewrite lenN_cons. fold (enc_attrs l). lia.
Qed.
Lemma open_top : forall k ver l s, wrote k ver l s -> od_frames (doc_calls l odoc_start) <> [] ->
  exists n t, w_open s = n :: t /\ (nh_attrs (on_header n) + 1 < pow2_64)%N.
Proof.
  intros k ver l s H K. destruct (wrote_rel _ _ _ _ H) as [[_ (_ & _ & L) RS _ _ _] _]. destruct (doc_calls l odoc_start) as [ns [|f t]]; [contradiction|]. cbn [od_frames od_nodes] in *.
  destruct (w_open s) as [|n m]; [contradiction|]. exists n, m. split; [reflexivity|]. destruct RS as [(_ & _ & _ & P & _) _]. rewrite P.
  unfold enc_open in L. cbn [od_frames od_nodes enc_frames] in L. rewrite lenN_app, enc_frame_len in L. pose proof (attrs_bound (of_atts f)). unfold pow2_63, pow2_64 in *. lia.
Qed.

(** On a sink that does not fail, the error says what is too long. *)
Theorem C29_long_attribute_error : forall k ver l s, wrote k ver l s -> od_frames (doc_calls l odoc_start) <> [] -> wgood (w_sink s) ->
  let pos := lenN (enc_open ver (doc_calls l odoc_start)) in
  (forall b bs, (pow2_32 <= lenN bs)%N -> (pos + 5 + lenN bs < pow2_63)%N -> fst (run_acall (ADirect b bs) s) = Err (AttributeTooLong (lenN bs))) /\
  (forall enc v, let payload := array_payload (is_zip enc) (elems_bytes v) in
     (pos + 13 + lenN payload < pow2_63)%N ->
     ((pow2_32 <= lenN (elems_bytes v))%N -> fst (run_acall (AArray enc v false) s) = Err (TooManyArrayAttributeElements (lenN (elems_bytes v) + 1))) /\
     ((lenN (elems_bytes v) < pow2_32)%N -> (pow2_32 <= lenN payload)%N -> fst (run_acall (AArray enc v false) s) = Err (AttributeTooLong (lenN payload)))).
Proof.
  intros k ver l s H K G pos. destruct (open_top _ _ _ _ H K) as (n & t & O & L). destruct (wrote_rel _ _ _ _ H) as [[_ A _ _ _ _] _].
  split; [intros b bs HL R; cbn [run_acall]; apply (direct_too_long _ _ _ _ _ _ _ G A O L R HL)|].
  intros enc v payload R. split; [|intros HC HL; apply (array_too_long _ _ _ _ _ _ _ G A O L R HC HL)].
  intros HC. cbn [run_acall]. unfold append_array. set (e := match enc with Some e => e | None => EncDirect end).
  assert (EZ : is_zip enc = match e with EncZlib => true | EncDirect => false end) by (unfold e; destruct enc as [[]|]; reflexivity).
  destruct (total_init_array (elems_type v) e s _ _ n t G A O L ltac:(fold pos; lia)) as (hp & s1 & E1 & G1 & _).
  unfold wbind at 1. rewrite E1. destruct (init_array_ok _ _ _ _ _ _ _ E1 A) as [(_ & A1 & _) _].
  destruct (total_tell _ _ _ G1 A1) as (q & s2 & E2 & G2 & _ & A2 & ->). unfold wbind at 1. rewrite E2.
  assert (LP : (lenN (enc_open ver (doc_calls l odoc_start) ++ [spec_code (elems_type v)] ++ arr_head 0 e 0) = pos + 13)%N) by (rewrite !lenN_app, arr_head_len; fold pos; change (lenN [spec_code (elems_type v)]) with 1%N; lia).
  assert (X : exists s3, match e with EncDirect => write_elements (elems_bytes v) false | EncZlib => write_zlib (elems_bytes v) false end s2 = (Err (TooManyArrayAttributeElements (lenN (elems_bytes v) + 1)), s3)).
  { unfold payload in R. rewrite EZ in R. destruct e; cbn [array_payload] in R.
    - destruct (total_each WIo (elems_bytes v) s2 _ _ G2 A2 ltac:(rewrite LP; exact R)) as (u & s3 & E3 & _). exists s3. unfold write_elements, wbind, write_each. rewrite E3. unfold count_elements. replace (_ <? _)%N with false by lia. reflexivity.
    - unfold z_enc in R. rewrite lenN_app in R.
      destruct (total_each WIo (z_feed (elems_bytes v)) s2 _ _ G2 A2 ltac:(rewrite LP; lia)) as (u & s3 & E3 & _). exists s3. unfold write_zlib, wbind, write_each. rewrite E3. unfold count_elements. replace (_ <? _)%N with false by lia. reflexivity. }
  destruct X as (s3 & E3). unfold wbind at 1. rewrite E3. reflexivity.
Qed.

(** No operation of the writer touches the way the sink flushes. *)
Definition keeps_flush {A} (m : WM A) : Prop := forall s, k_flush (w_sink (snd (m s))) = k_flush (w_sink s).
Lemma kf_bind : forall A B (m : WM A) (k : A -> WM B), keeps_flush m -> (forall a, keeps_flush (k a)) -> keeps_flush (wbind m k).
Proof.
  intros A B m k Hm Hk s. specialize (Hm s). unfold wbind. destruct (m s) as [[a|e|] s1]; cbn [snd] in *; auto. rewrite (Hk a s1). exact Hm.
Qed.
Lemma kf_write : forall wrap bs, keeps_flush (write_as wrap bs).
Proof. intros wrap bs s. unfold write_as. destruct (wr _ _ _ _) as [[[? ?] ?] ?]. reflexivity. Qed.
Lemma kf_tell : keeps_flush tell.
Proof. intros s. unfold tell, k_seek. destruct (k_seeks _) as [|[|]]; reflexivity. Qed.
Lemma kf_seek : forall p, keeps_flush (seek p).
Proof. intros p s. unfold seek, k_seek. destruct (k_seeks _) as [|[|]]; reflexivity. Qed.
Lemma kf_modify : forall f, (forall s, w_sink (f s) = w_sink s) -> keeps_flush (wmodify f).
Proof. intros f H s. unfold wmodify. cbn [snd]. rewrite H. reflexivity. Qed.
Ltac kf_step :=
  match goal with
  | |- keeps_flush (wbind _ _) => apply kf_bind; [|intro]
  | |- keeps_flush (wret _) => intro; reflexivity
  | |- keeps_flush (wthrow _) => intro; reflexivity
  | |- keeps_flush wpanic => intro; reflexivity
  | |- keeps_flush (wgets _) => intro; reflexivity
  | |- keeps_flush (wmodify set_has_child) => apply kf_modify; exact sink_has_child
  | |- keeps_flush (wmodify _) => apply kf_modify; intro; reflexivity
  | |- keeps_flush (write _) => apply kf_write
  | |- keeps_flush (write_as _ _) => apply kf_write
  | |- keeps_flush tell => apply kf_tell
  | |- keeps_flush (seek _) => apply kf_seek
  | |- keeps_flush (if ?b then _ else _) => destruct b
  | |- keeps_flush (wwhen ?b _) => destruct b; cbn [wwhen]
  | |- keeps_flush (match ?x with _ => _ end) => destruct x
  | |- keeps_flush (?f) => first [eassumption | let h := match f with ?h _ _ _ _ => h | ?h _ _ _ => h | ?h _ _ => h | ?h _ => h | ?h => h end in unfold h; cbv beta iota zeta]
  end.
Lemma kf_acall : forall c, keeps_flush (run_acall c).
Proof.
  assert (EA : forall wrap l, keeps_flush (write_each_as wrap l)) by (induction l as [|b l IH]; cbn [write_each_as]; repeat kf_step).
  assert (CO : forall l n, keeps_flush (io_copy l n)) by (induction l as [|[[|b bs]| |x] l IH]; intros n; cbn [io_copy]; try apply IH; repeat kf_step; apply IH).
  assert (CH : forall cs buf n, keeps_flush (write_chars buf cs n)) by (induction cs as [|x cs IH]; intros buf n; cbn [write_chars]; cbv zeta; repeat kf_step; apply IH).
  intros c s. rewrite acall_split. revert s. change (keeps_flush (update_node_header;> write_type_code (code_of c);> after_code c)).
  apply kf_bind; [repeat kf_step|intros _]. apply kf_bind; [repeat kf_step|intros _].
  destruct c as [v|enc v fails|b bs|l|l fails|cs fails]; cbn [after_code]; cbv zeta.
  - repeat kf_step.
  - apply kf_bind; [apply kf_tell|intro]. apply kf_bind; [repeat kf_step|intro]. apply kf_bind; [apply kf_tell|intro].
    apply kf_bind; [destruct (match enc with Some e => e | None => EncDirect end); 
      [pose proof (EA WIo (elems_bytes v))|pose proof (EA WIo (z_feed (elems_bytes v))); pose proof (EA Compression (z_fin (elems_bytes v)))]; repeat kf_step|intro]. repeat kf_step.
  - repeat kf_step.
  - apply kf_bind; [apply kf_tell|intro]. apply kf_bind; [repeat kf_step|intro]. apply kf_bind; [apply CO|intro]. repeat kf_step.
  - apply kf_bind; [apply kf_tell|intro]. apply kf_bind; [repeat kf_step|intro]. apply kf_bind; [apply EA|intro]. repeat kf_step.
  - apply kf_bind; [apply kf_tell|intro]. apply kf_bind; [repeat kf_step|intro]. apply kf_bind; [apply CH|intro]. repeat kf_step.
Qed.
Lemma kf_calls : forall l s, k_flush (w_sink (snd (run_wcalls l s))) = k_flush (w_sink s).
Proof.
  assert (KA : forall l s, k_flush (w_sink (snd (run_acalls l s))) = k_flush (w_sink s)).
  { induction l as [|c l IH]; intros s; [reflexivity|]. cbn [run_acalls]. pose proof (kf_acall c s) as K. destruct (run_acall c s) as [[u|e|] s1]; cbn [snd] in *; [| |exact K];
      specialize (IH s1); destruct (run_acalls l s1) as [rs s2]; cbn [snd] in *; congruence. }
  assert (KN : forall name, keeps_flush (new_node name)) by (intro; repeat kf_step).
  assert (KC : keeps_flush close_node) by repeat kf_step.
  assert (KW : forall c s, k_flush (w_sink (snd (run_wcall c s))) = k_flush (w_sink s)).
  { intros [name attrs|] s; cbn [run_wcall].
    - specialize (KN name s). destruct (new_node name s) as [[[]|e|] s1]; cbn [snd] in *; auto. specialize (KA attrs s1). destruct (run_acalls attrs s1). cbn [snd] in *. congruence.
    - specialize (KC s). destruct (close_node s). exact KC. }
  induction l as [|c l IH]; intros s; [reflexivity|]. cbn [run_wcalls]. specialize (KW c s). destruct (run_wcall c s) as [rs s1]. cbn [snd] in KW.
  destruct (existsb is_panic rs); [exact KW|]. specialize (IH s1). destruct (run_wcalls l s1). cbn [snd] in *. congruence.
Qed.

(** ** C44: every document can be written *)
Lemma total_new_writer : forall k ver, wgood k -> (7000 <= ver <= 7999)%N -> exists s, new_writer k ver = Ok s /\ wgood (w_sink s).
Proof.
  intros k ver G V. unfold new_writer. replace (ver_major ver =? 7)%N with true by (unfold ver_major; lia). cbn [negb].
  assert (K : total (seek 0;> write magic;> write (le_enc 4 ver)) (mkW k ver []) (fun _ _ => True)).
  { eapply total_bind; [apply total_seek; exact G|]. intros u s1 _ G1 (_ & D1 & P1). clear u.
    assert (A : at_ [] (k_data (w_sink s1)) (w_sink s1)) by (split; [reflexivity|]; split; [exact P1|reflexivity]).
    eapply total_bind; [apply (total_write WIo magic _ _ _ G1 A); reflexivity|]. intros u s2 _ G2 (_ & A2). clear u.
    eapply total_imp; [apply (total_write WIo _ _ _ _ G2 A2)|trivial]. rewrite lenN_app, le_enc_lenN. reflexivity. }
  destruct K as (u & s & E & G' & _). rewrite E. eauto.
Qed.

Lemma total_finalize : forall ver old d s fl f, wgood (w_sink s) -> wrel ver old d s -> od_frames d = [] -> (fl = true -> k_flush (w_sink s) = None) ->
  (lenN (enc_finished ver (od_nodes d) f) < pow2_63)%N -> exists k' s', finalize fl f s = (Ok k', s').
Proof.
  intros ver old d s fl f G [RV RA RS RN RF RZ] ED HF L. unfold finalize.
  assert (EO : w_open s = []) by (rewrite ED in RS; destruct (w_open s); [reflexivity|contradiction]).
  assert (LO : lenN (enc_open ver d ++ end_marker ver) = (27 + nodes_size ver (od_nodes d) + header_size ver)%N).
  { unfold enc_open. rewrite ED, lenN_app, enc_base_len, end_marker_len. reflexivity. }
  unfold enc_finished in L. rewrite !lenN_app, le_enc_lenN, enc_nodes_len', end_marker_len in L. change (lenN spec_magic) with 23%N in L. unfold enc_wfooter in L.
  change (footer_field (wf_unknown1 f) spec_default1) with (wf_field1 f) in L. change (footer_field (wf_unknown2 f) (zeros 4)) with (wf_field2 f) in L. change (footer_field (wf_unknown3 f) spec_trailer) with (wf_field3 f) in L.
  rewrite !lenN_app, !le_enc_lenN in L.
  assert (K : total (finalize_impl f) s (fun _ s' => k_flush (w_sink s') = k_flush (w_sink s))).
  { assert (FL : forall wrap bs s0, k_flush (w_sink (snd (write_as wrap bs s0))) = k_flush (w_sink s0)) by (intros; unfold write_as; destruct (wr _ _ _ _) as [[[? ?] ?] ?]; reflexivity).
    assert (FT : forall s0, k_flush (w_sink (snd (tell s0))) = k_flush (w_sink s0)) by (intros; unfold tell, k_seek; destruct (k_seeks _) as [|[|]]; reflexivity).
    unfold finalize_impl. eapply total_bind with (P := fun l s' => l = [] /\ s' = s); [exists [], s; unfold wgets; rewrite EO; auto|]. intros l s0 _ _ [-> ->].
    eapply total_bind with (P := fun _ s' => k_flush (w_sink s') = k_flush (w_sink s) /\ same s s' /\ exists o, at_ (enc_open ver d ++ end_marker ver) o (w_sink s')).
    { eapply total_imp; [apply (total_header node_end _ _ _ G RA)|].
      - intros _. unfold u_ok. cbn. lia.
      - rewrite RV, node_end_bytes, LO. lia.
      - intros u s' E _ (S & A). rewrite RV, node_end_bytes in A. split; [|eauto].
        assert (KF : forall h, keeps_flush (write_node_header h)) by (intro; repeat kf_step).
        specialize (KF node_end s). rewrite E in KF. exact KF. }
    intros u s1 _ G1 (F1 & (V1 & _) & o & A1). clear u.
    eapply total_bind with (P := fun _ s' => k_flush (w_sink s') = k_flush (w_sink s) /\ w_ver s' = ver /\ exists o, at_ ((enc_open ver d ++ end_marker ver) ++ wf_field1 f) o (w_sink s')).
    { eapply total_imp; [apply (total_write WIo _ _ _ _ G1 A1); rewrite lenN_app, LO; lia|]. intros u s' E _ ((V & _) & A). pose proof (FL WIo (wf_field1 f) s1) as X. unfold write in E. rewrite E in X. cbn [snd] in X. split; [congruence|]. split; [congruence|eauto]. }
    intros u s2 _ G2 (F2 & V2 & o2 & A2). clear u. set (pre := (enc_open ver d ++ end_marker ver) ++ wf_field1 f) in *.
    assert (LP : lenN pre = (27 + nodes_size ver (od_nodes d) + header_size ver + lenN (wf_field1 f))%N) by (unfold pre; rewrite lenN_app, LO; reflexivity).
    eapply total_bind with (P := fun len s' => k_flush (w_sink s') = k_flush (w_sink s) /\ w_ver s' = ver /\ at_ pre o2 (w_sink s') /\ len = footer_pad f (lenN pre)).
    { unfold footer_pad. destruct (wf_padding f).
      - eapply total_bind; [apply (total_tell _ _ _ G2 A2)|]. intros cur s' E G' ((V & _) & A & ->). apply total_ret; [exact G'|]. pose proof (FT s2) as X. rewrite E in X. cbn [snd] in X.
        split; [congruence|]. split; [congruence|]. split; [exact A|]. apply pad16_spec. destruct A as (_ & _ & A). unfold pow2_63, pow2_64 in *. lia.
      - apply total_ret; auto. }
    intros len s3 _ G3 (F3 & V3 & A3 & EL). rewrite <- LP, <- EL in L.
    assert (WR : forall bs s0 pr ol, wgood (w_sink s0) -> at_ pr ol (w_sink s0) -> (lenN pr + lenN bs < pow2_63)%N -> k_flush (w_sink s0) = k_flush (w_sink s) -> w_ver s0 = ver ->
      total (write bs) s0 (fun _ s' => k_flush (w_sink s') = k_flush (w_sink s) /\ w_ver s' = ver /\ exists o, at_ (pr ++ bs) o (w_sink s'))).
    { intros bs s0 pr ol G0 A0 L0 F0 V0. eapply total_imp; [apply (total_write WIo _ _ _ _ G0 A0); rewrite lenN_app; exact L0|]. intros u s' E _ ((V & _) & A). pose proof (FL WIo bs s0) as X. unfold write in E. rewrite E in X. cbn [snd] in X. split; [congruence|]. split; [congruence|eauto]. }
    assert (LPRE : (lenN pre = lenN (wf_field1 f) + (27 + nodes_size ver (od_nodes d) + header_size ver))%N) by lia.
    eapply total_bind; [apply (WR _ _ _ _ G3 A3); auto; lia|]. intros u s4 _ G4 (F4 & V4 & o4 & A4). clear u.
    eapply total_bind; [apply (WR _ _ _ _ G4 A4); auto; rewrite lenN_app; lia|]. intros u s5 _ G5 (F5 & V5 & o5 & A5). clear u.
    eapply total_bind with (P := fun _ s' => k_flush (w_sink s') = k_flush (w_sink s) /\ w_ver s' = ver /\ exists o, at_ (((pre ++ zeros (N.to_nat len)) ++ wf_field2 f) ++ le_enc 4 ver) o (w_sink s')).
    { eapply total_bind with (P := fun v s' => v = ver /\ s' = s5); [exists (w_ver s5), s5; split; [reflexivity|auto]|]. intros v s' _ _ [-> ->]. apply (WR _ _ _ _ G5 A5); auto. rewrite !lenN_app, le_enc_lenN. lia. }
    intros u s6 _ G6 (F6 & V6 & o6 & A6). clear u.
    eapply total_bind; [apply (WR _ _ _ _ G6 A6); auto; rewrite !lenN_app, le_enc_lenN; lia|]. intros u s7 _ G7 (F7 & V7 & o7 & A7). clear u.
    eapply total_imp; [apply (WR _ _ _ _ G7 A7); auto; rewrite !lenN_app, le_enc_lenN; lia|]. intros u s8 _ _ (F8 & _). exact F8. }
  destruct K as (u & s1 & E & _ & F). unfold wbind. rewrite E. destruct fl; cbn [wwhen]; [|unfold wret; eauto]. unfold flush. rewrite F, (HF eq_refl). eauto.
Qed.

(** Every document that the format can hold can be written: on a sink that does not fail, the
    obvious calls all succeed and the file contains exactly that document.  (The encoding of
    attributes other than arrays is not a choice: [zips_ok].) *)
Lemma document_written : forall k ver ns f fl, wgood k -> (fl = true -> k_flush k = None) -> (lenN (k_data k) < pow2_63)%N ->
  doc_ok ver ns -> Forall zips_ok ns -> wfooter_typed f -> (lenN (enc_finished ver ns f) < pow2_63)%N ->
  exists s0 s1 k' s2, new_writer k ver = Ok s0 /\ runs (calls_of_all ns) s0 s1 /\ finalize fl f s1 = (Ok k', s2) /\
    finished k ver (calls_of_all ns) f k' /\ nodes_of (calls_of_all ns) = ns.
Proof.
  intros k ver ns f fl G HF LD (V & NO & CO & U & LN) ZO HT L.
  destruct (total_new_writer k ver G V) as (s0 & E0 & G0). destruct (new_writer_ok _ _ _ E0) as [R0 _].
  assert (L0 : lenN (enc_open ver odoc_start) = 27%N) by (unfold enc_open, odoc_start; cbn [od_nodes od_frames]; rewrite enc_base_len; reflexivity).
  destruct (total_nodes ver (k_data k) ns odoc_start s0 G0 R0 NO CO ZO) as (s1 & (rs & E1 & F1) & G1 & R1); rewrite ?L0; auto.
  assert (ED : doc_calls (calls_of_all ns) odoc_start = mkOD ns []).
  { rewrite doc_calls_of_all by exact ZO. unfold odoc_start. assert (X : forall l acc, fold_left (fun d n => add_node n d) l (mkOD acc []) = mkOD (acc ++ l) []).
    { induction l as [|n l IH]; intros acc; [rewrite app_nil_r; reflexivity|]. cbn [fold_left]. unfold add_node at 2. cbn [od_frames od_nodes]. rewrite IH, <- app_assoc. reflexivity. }
    apply X. }
  rewrite ED in R1.
  assert (W : wrote k ver (calls_of_all ns) s1).
  { assert (T : Forall wcall_typed (calls_of_all ns) /\ Forall wfaithful (calls_of_all ns)).
    { clear - NO. assert (ONE : forall n, node_ok n -> Forall wcall_typed (calls_of n) /\ Forall wfaithful (calls_of n)).
      { induction n as [name ats kids HK] using node_ind2. intros N. apply node_ok_eq in N. destruct N as (N1 & _ & N3 & N4). cbn [calls_of].
        assert (A : Forall acall_typed (map call_of ats) /\ Forall faithful (map call_of ats)).
        { clear - N3. induction N3 as [|a l H _ [I1 I2]]; [split; constructor|]. destruct (call_of_typed _ H). cbn [map]. split; constructor; auto. }
        assert (B : Forall wcall_typed (flat_map calls_of kids) /\ Forall wfaithful (flat_map calls_of kids)).
        { clear - HK N4. induction HK as [|x l H _ IH]; [split; constructor|]. apply Forall_cons_iff in N4. destruct N4 as [N N']. destruct (H N), (IH N'). cbn [flat_map]. split; apply Forall_app; auto. }
        destruct A, B. split; (constructor; [cbn; auto|]); apply Forall_app; (split; [auto|repeat constructor]). }
      unfold calls_of_all. induction NO as [|n l H _ [I1 I2]]; [split; constructor|]. destruct (ONE n H). cbn [flat_map]. split; apply Forall_app; auto. }
    destruct T as [T1 T2]. constructor; [exact T1|exact T2|]. exists s0, rs. split; [exact E0|]. split; [exact E1|]. eapply Forall_impl; [|exact F1]. auto. }
  assert (FL : k_flush (w_sink s1) = k_flush k).
  { pose proof (kf_calls (calls_of_all ns) s0) as K. rewrite E1 in K. cbn [snd] in K. rewrite K. unfold new_writer in E0. destruct (negb _); [discriminate|].
    assert (KN : keeps_flush (seek 0;> write magic;> write (le_enc 4 ver))) by repeat kf_step. specialize (KN (mkW k ver [])).
    destruct ((seek 0;> write magic;> write (le_enc 4 ver)) (mkW k ver [])) as [[u|e|] sx]; try discriminate. injection E0 as ->. cbn [snd w_sink] in KN. rewrite KN. reflexivity. }
  destruct (total_finalize ver (k_data k) (mkOD ns []) s1 fl f G1 R1 eq_refl (fun X => eq_trans FL (HF X)) L) as (k' & s2 & E2).
  exists s0, s1, k', s2. split; [exact E0|]. split; [exists rs; auto|]. split; [exact E2|]. split; [|unfold nodes_of; rewrite ED; reflexivity]. constructor; [exact HT| |exists s1, fl, s2; auto].
  destruct (finalize_layout _ _ _ _ _ _ _ _ R1 E2) as (_ & D & _ & _). rewrite D, lenN_app, lenN_dropN. cbn [od_nodes]. unfold pow2_63, pow2_64 in *. lia.
Qed.
Theorem C44_every_document_can_be_written : forall k ver ns f, wgood k -> k_flush k = None -> (lenN (k_data k) < pow2_63)%N ->
  doc_ok ver ns -> Forall zips_ok ns -> wfooter_typed f -> (lenN (enc_finished ver ns f) < pow2_63)%N ->
  exists k', finished k ver (calls_of_all ns) f k' /\ nodes_of (calls_of_all ns) = ns.
Proof.
  intros k ver ns f G HF LD HD ZO HT L.
  destruct (document_written k ver ns f true G (fun _ => HF) LD HD ZO HT L) as (s0 & s1 & k' & s2 & _ & _ & _ & H). exists k'. exact H.
Qed.

End WithEnv.

(** ** Concrete cases *)
(** ** Concrete cases *)
Module SinkCases.
Import PropsWriter.Cases.

(** The sink fails at the first byte of an attribute; the client goes on and closes the node:
    the writer panics. *)
Definition kbad : sink := mkSink [] 0 [WChunk 100; WChunk 100; WChunk 100; WChunk 100; WChunk 100; WChunk 100; WChunk 100; WFail 5] [] None.
Theorem C31_refuted : exists (env : Env) k ver l s rs s', new_writer k ver = Ok s /\ run_wcalls l s = (rs, s') /\ In Panic rs.
Proof.
  exists release, kbad, 7400%N, [CNode s_a [ASingle (SI32 7)]; CClose]. do 3 eexists.
  split; [vm_compute; reflexivity|]. split; [vm_compute; reflexivity|]. right. right. left. reflexivity.
Qed.

(** Failures of other calls are survived: a failing [new_node], a failing [close_node]. *)
Definition kfail : sink := mkSink [] 0 [WChunk 100; WChunk 100; WFail 9] [None; None; None; None; None; None; None; None; None; None; Some 4%N] None.
Definition hist : list wcall := [CNode s_a []; CNode s_b [ASingle (SI16 1)]; CNode s_c []; CClose; CNode s_a [ASingle (SI16 2)]; CClose; CClose; CClose].
Example C31_no_panic_ex : exists s rs s', new_writer kfail 7400 = Ok s /\ run_wcalls (env := release) hist s = (rs, s') /\
  Forall (fun r => ~ sink_error r) (attribute_results (env := release) hist s) /\
  In (Err (WIo (IoOther 9))) rs /\ In (Err (WIo (IoOther 4))) rs.
Proof.
  do 3 eexists. split; [vm_compute; reflexivity|]. split; [vm_compute; reflexivity|]. split.
  - vm_compute. repeat apply Forall_cons; try apply Forall_nil; intros (e & [H|H]); discriminate.
  - cbn [In]. auto 8.
Qed.

Definition s_kfail : wstate := match new_writer kfail 7400 with Ok s => s | _ => mkW kfail 7400 [] end.
Example C31_reported_ex : fst (new_node (env := release) s_a s_kfail) = Err (WIo (IoOther 9)) /\
  faithful_to (w_sink s_kfail) (fst (new_node (env := release) s_a s_kfail)) (w_sink (snd (new_node (env := release) s_a s_kfail))).
Proof. split; [vm_compute; reflexivity|]. apply C31_failures_reported. Qed.

(** A binary attribute of 2 GiB, a node with two of them. *)
Lemma long_list : forall n, exists b : list byte, lenN b = n.
Proof. intros n. exists (repeat x00 (N.to_nat n)). unfold lenN. rewrite repeat_length. apply N2Nat.id. Qed.
Definition big_attr (big : list byte) : attr := mkAttr (VBinary big) false.
Lemma big_ok : forall big, lenN big = 2147483648%N -> attr_ok (env := release) (big_attr big).
Proof. intros big L. split; [exact I|]. unfold attr_fits, big_attr. cbn [at_val]. rewrite L. reflexivity. Qed.
Lemma big_enc : forall big, lenN big = 2147483648%N -> lenN (enc_attrs (env := release) [big_attr big; big_attr big]) = 4294967306%N.
Proof. intros big L. unfold enc_attrs, big_attr, enc_attr. cbn [flat_map at_val]. rewrite app_nil_r, lenN_app, !lenN_cons, !lenN_app, L, le_enc_lenN. reflexivity. Qed.

Definition kempty : sink := mkSink [] 0 [] [] None.
Example C29_too_large_ex : exists l s, wrote (env := release) kempty 7400 l s /\ wgood (w_sink s) /\
  (pow2_32 <= end_if_closed (env := release) 7400 (doc_calls l odoc_start) < pow2_63)%N.
Proof.
  destruct (long_list 2147483648) as [big L].
  assert (G : wgood kempty) by (split; reflexivity).
  destruct (total_new_writer kempty 7400 G ltac:(lia)) as (s0 & E0 & G0). destruct (new_writer_ok (env := release) _ _ _ E0) as [R0 _].
  destruct (total_new_node (env := release) 7400 (k_data kempty) odoc_start s_a s0 G0 R0 eq_refl eq_refl eq_refl) as ([] & s1 & E1 & G1 & R1).
  destruct (total_calls (env := release) 7400 (k_data kempty) [big_attr big; big_attr big] (open_node s_a odoc_start) s1 G1 R1) as (rs & s2 & E2 & F2 & G2 & R2).
  - reflexivity.
  - eapply new_node_fresh; eauto.
  - reflexivity.
  - constructor; [apply (big_ok _ L)|constructor; [apply (big_ok _ L)|constructor]].
  - repeat constructor.
  - rewrite (big_enc _ L). reflexivity.
  - exists [CNode s_a (map call_of [big_attr big; big_attr big])], s2. split; [|split; [exact G2|]].
    + constructor; [repeat constructor|repeat constructor|]. exists s0, (Ok tt :: rs). split; [exact E0|]. split.
      * cbn [run_wcalls run_wcall]. rewrite E1, E2. rewrite (ok_no_panic (Ok tt :: rs)) by (constructor; auto). rewrite app_nil_r. reflexivity.
      * constructor; [auto|]. eapply Forall_impl; [|exact F2]. auto.
    + assert (ED : doc_calls [CNode s_a (map call_of [big_attr big; big_attr big])] odoc_start = mkOD [] [mkOF s_a [big_attr big; big_attr big] []]) by reflexivity.
      rewrite ED. unfold end_if_closed, enc_open. cbn [od_frames od_nodes enc_frames]. rewrite lenN_app, enc_frame_len. cbn [of_name of_atts of_kids]. rewrite (big_enc _ L). unfold pow2_32, pow2_63. vm_compute. split; [discriminate|reflexivity].
Qed.

(** A binary attribute of 8 GiB on a file with an open node. *)
Example C29_long_attribute_ex : exists huge s, wrote (env := release) kempty 7500 [CNode s_a []] s /\
  fst (run_acall (env := release) (ADirect false huge) s) = Err (AttributeTooLong 8589934592).
Proof.
  destruct (long_list 8589934592) as [huge huge_len]. exists huge.
  assert (W : exists s, wrote (env := release) kempty 7500 [CNode s_a []] s /\ wgood (w_sink s)).
  { eexists. split; [constructor; [repeat constructor|repeat constructor|]; eexists; eexists; split; [vm_compute; reflexivity|]; split; [vm_compute; reflexivity|]; fine_all|split; reflexivity]. }
  destruct W as (s & W & G). exists s. split; [exact W|]. rewrite <- huge_len.
  apply (C29_long_attribute_error (env := release) kempty 7500 _ _ W); [discriminate|exact G| |]; rewrite huge_len; vm_compute; congruence.
Qed.

(** The sample document can be written. *)
Example C44_ex : exists k', finished (env := release) kempty 7400 (calls_of_all sample_nodes) f0 k' /\ nodes_of (calls_of_all sample_nodes) = sample_nodes.
Proof.
  apply C44_every_document_can_be_written.
  - split; reflexivity.
  - reflexivity.
  - reflexivity.
  - apply PropsDoc.Cases.sample_ok; cbn; auto.
  - repeat constructor.
  - repeat constructor.
  - vm_compute. reflexivity.
Qed.
End SinkCases.
