(** The file does not depend on how the sink takes the bytes: C78. *)
Require Import Coq.Lists.List Coq.NArith.NArith Coq.ZArith.ZArith Coq.Bool.Bool Coq.micromega.Lia.
Require Import Coq.Init.Byte.
Require Import ZifyBool ZifyNat ZifyN.
Require Import Verif.Base Verif.BaseFacts Verif.Utf8 Verif.Types Verif.Io Verif.Parser Verif.Writer Verif.WriterFacts Verif.WriterTotal Verif.Tree Verif.TreeIo Verif.TreeSpec Verif.PropsTree Verif.PropsWriter Verif.PropsSink Verif.Samples.
Import ListNotations.
Open Scope writer_scope.

(** ** Specification *)

(** What a client may do with a writer, other than to finish it. *)
Inductive wstep := StepCall (c : wcall) | StepTree (t : tree).

(** What came of a session: the result of each call, and the content and position of the sink
    (unknown if the writer could not be created). *)
Definition outcome : Type := list (res werr unit) * option (list byte * N).
Definition file_of (s : wstate) : option (list byte * N) := Some (k_data (w_sink s), k_pos (w_sink s)).
Definition forget {A} (r : res werr A) : res werr unit := match r with Ok _ => Ok tt | Err e => Err e | Panic => Panic end.

Section Spec.
Context {env : Env}.

(** The results of a step. *)
Definition run_wstep (c : wstep) (s : wstate) : list (res werr unit) * wstate :=
  match c with
  | StepCall c => run_wcall c s
  | StepTree t => let '(r, s') := write_tree t s in ([r], s')
  end.
(** A history of steps, with a final [finalize] (or [finalize_and_flush]) if wanted; it ends at
    a panic. *)
Fixpoint run_wsteps (l : list wstep) (fin : option (bool * wfooter)) (s : wstate) : outcome :=
  match l with
  | [] =>
      match fin with
      | None => ([], file_of s)
      | Some (and_flush, f) => let '(r, s') := finalize and_flush f s in ([forget r], file_of s')
      end
  | c :: l' =>
      let '(rs, s') := run_wstep c s in
      if existsb is_panic rs then (rs, file_of s')
      else let '(rs', x) := run_wsteps l' fin s' in (rs ++ rs', x)
  end.
(** A whole session with a sink. *)
Definition session (k : sink) (ver : N) (l : list wstep) (fin : option (bool * wfooter)) : outcome :=
  match new_writer k ver with
  | Ok s => let '(rs, x) := run_wsteps l fin s in (Ok tt :: rs, x)
  | Err e => ([Err e], None)
  | Panic => ([Panic], None)
  end.

(** The call failed because the sink did: an I/O error. *)
Definition io_failed (r : res werr unit) : bool :=
  match r with Err (WIo _) | Err (Compression _) => true | _ => false end.
(** The call failed because the file would be longer than 2^63-1 bytes. *)
Definition overfull (r : res werr unit) : Prop := r = Err (WIo too_big) \/ r = Err (Compression too_big).

(** ** Relational triples for the writer *)
Definition agree (s1 s2 : wstate) : Prop :=
  k_data (w_sink s1) = k_data (w_sink s2) /\ k_pos (w_sink s1) = k_pos (w_sink s2) /\ k_flush (w_sink s1) = k_flush (w_sink s2) /\
  w_ver s1 = w_ver s2 /\ w_open s1 = w_open s2.
Definition err_of {A} (r : res werr A) : option werr := match r with Err e => Some e | _ => None end.

Section Rel.
(** [P] holds of both sinks all along; the runs part only with errors in [esc]. *)
Context (P : sink -> Prop) (esc : option werr -> option werr -> Prop).
Definition lasting : Prop := forall a b a' b', esc a b -> (a <> None -> a' = a) -> (b <> None -> b' = b) -> esc a' b'.
Context (Hesc : lasting).

Definition wrel {A} (m1 m2 : WM A) : Prop := forall s1 s2, agree s1 s2 -> P (w_sink s1) -> P (w_sink s2) ->
  let r1 := m1 s1 in let r2 := m2 s2 in
  (fst r1 = fst r2 /\ agree (snd r1) (snd r2) /\ P (w_sink (snd r1)) /\ P (w_sink (snd r2))) \/ esc (err_of (fst r1)) (err_of (fst r2)).

Lemma wrel_ret : forall A (a : A), wrel (wret a) (wret a).
Proof. intros A a s1 s2 H P1 P2. left. cbn. auto. Qed.
Lemma wrel_throw : forall A e, wrel (@wthrow A e) (wthrow e).
Proof. intros A a s1 s2 H P1 P2. left. cbn. auto. Qed.
Lemma wrel_panic : forall A, wrel (@wpanic A) wpanic.
Proof. intros A s1 s2 H P1 P2. left. cbn. auto. Qed.
Lemma wrel_bind : forall A B (m1 m2 : WM A) (k1 k2 : A -> WM B), wrel m1 m2 -> (forall a, wrel (k1 a) (k2 a)) -> wrel (wbind m1 k1) (wbind m2 k2).
Proof.
  intros A B m1 m2 k1 k2 Hm Hk s1 s2 H P1 P2. specialize (Hm s1 s2 H P1 P2). cbv zeta in *. unfold wbind.
  destruct (m1 s1) as [r1 t1]. destruct (m2 s2) as [r2 t2]. cbn [fst snd] in Hm. destruct Hm as [(-> & H' & P1' & P2')|E].
  - destruct r2 as [a|e|]; [apply Hk; assumption|left; cbn; auto|left; cbn; auto].
  - right. eapply Hesc; [exact E| |].
    + destruct r1; cbn [err_of fst]; intros X; try reflexivity; exfalso; apply X; reflexivity.
    + destruct r2; cbn [err_of fst]; intros X; try reflexivity; exfalso; apply X; reflexivity.
Qed.
Lemma wrel_gets : forall A (f : wstate -> A), (forall s1 s2, agree s1 s2 -> f s1 = f s2) -> wrel (wgets f) (wgets f).
Proof. intros A f F s1 s2 H P1 P2. left. cbn. split; [f_equal; apply F; exact H|auto]. Qed.
Lemma wrel_open : wrel (wgets w_open) (wgets w_open).
Proof. apply wrel_gets. intros s1 s2 H. apply H. Qed.
Lemma wrel_ver : wrel (wgets w_ver) (wgets w_ver).
Proof. apply wrel_gets. intros s1 s2 H. apply H. Qed.
Lemma wrel_modify : forall f, (forall s1 s2, agree s1 s2 -> agree (f s1) (f s2)) -> (forall s, w_sink (f s) = w_sink s) -> wrel (wmodify f) (wmodify f).
Proof. intros f F K s1 s2 H P1 P2. left. unfold wmodify. cbn [fst snd]. rewrite !K. auto. Qed.
Lemma wrel_set_open : forall l, wrel (wmodify (set_open l)) (wmodify (set_open l)).
Proof. intros l. apply wrel_modify; [|reflexivity]. intros s1 s2 (A & B & C & D & E). unfold agree. cbn. auto 6. Qed.
Lemma wrel_when : forall b m, wrel m m -> wrel (wwhen b m) (wwhen b m).
Proof. intros [] m H; [exact H|apply wrel_ret]. Qed.

Context (Hwrite : forall wrap bs, wrap = WIo \/ wrap = Compression -> wrel (write_as wrap bs) (write_as wrap bs)).
Context (Htell : wrel tell tell) (Hseek : forall p, wrel (seek p) (seek p)).

Lemma wrel_write : forall bs, wrel (write bs) (write bs).
Proof. intros bs. apply Hwrite. auto. Qed.
Lemma wrel_write_each : forall wrap l, wrap = WIo \/ wrap = Compression -> wrel (write_each_as wrap l) (write_each_as wrap l).
Proof. intros wrap l W. induction l as [|b l IH]; cbn [write_each_as]; [apply wrel_ret|]. apply wrel_bind; [apply Hwrite; exact W|]. intros _. exact IH. Qed.
Lemma wrel_sub : forall a b, wrel (sub_u64 a b) (sub_u64 a b).
Proof. intros a b. unfold sub_u64. repeat match goal with |- context [if ?b then _ else _] => destruct b end; first [apply wrel_ret|apply wrel_panic]. Qed.

Ltac wstep := match goal with
  | |- wrel (wbind _ _) (wbind _ _) => apply wrel_bind; [|intros]
  | |- wrel (if ?b then _ else _) _ => destruct b
  | |- wrel (match ?l with _ => _ end) _ => destruct l
  | |- wrel (wret _) _ => apply wrel_ret
  | |- wrel (wthrow _) _ => apply wrel_throw
  | |- wrel wpanic _ => apply wrel_panic
  | |- wrel (wgets w_open) _ => apply wrel_open
  | |- wrel (wgets w_ver) _ => apply wrel_ver
  | |- wrel (wmodify (set_open _)) _ => apply wrel_set_open
  | |- wrel (write _) _ => apply wrel_write
  | |- wrel (write_each _) _ => apply wrel_write_each; left; reflexivity
  | |- wrel (write_each_as _ _) _ => apply wrel_write_each; auto
  | |- wrel tell _ => apply Htell
  | |- wrel (seek _) _ => apply Hseek
  | |- wrel (sub_u64 _ _) _ => apply wrel_sub
  | |- wrel (wwhen _ _) _ => apply wrel_when
  end.

Lemma wrel_header : forall h, wrel (write_node_header h) (write_node_header h).
Proof. intros h. unfold write_node_header, write_u32. repeat wstep. Qed.
Lemma wrel_fin_attrs : wrel finalize_attributes finalize_attributes.
Proof. unfold finalize_attributes. cbv zeta. repeat wstep. Qed.
Lemma wrel_new_node : forall name, wrel (new_node name) (new_node name).
Proof.
  intros name. unfold new_node. cbv zeta. apply wrel_bind; [apply wrel_fin_attrs|intros _]. apply wrel_bind; [|intros _].
  { apply wrel_modify.
    - intros s1 s2 (A & B & C & D & E). unfold agree, set_has_child. rewrite E. destruct (w_open s2) eqn:EO; cbn; rewrite ?E, ?EO; auto 8.
    - intros s. unfold set_has_child. destruct (w_open s); reflexivity. }
  wstep; [wstep|]. wstep; [wstep|]. wstep; [apply wrel_header|]. wstep; [wstep|]. wstep; [wstep|].
  apply wrel_modify; [|reflexivity]. intros s1 s2 (A & B & C & D & E). unfold agree. cbn. rewrite E. auto 6.
Qed.
Lemma wrel_close : wrel close_node close_node.
Proof. unfold close_node. apply wrel_bind; [apply wrel_fin_attrs|intros _]. repeat first [apply wrel_header|wstep]. Qed.
Lemma wrel_update : wrel update_node_header update_node_header.
Proof. unfold update_node_header. cbv zeta. repeat wstep. Qed.
Lemma wrel_io_copy : forall l n, wrel (io_copy l n) (io_copy l n).
Proof. induction l as [|[[|b bs]| |c] l IH]; intros n; cbn [io_copy]; repeat first [apply IH|wstep]. Qed.
Lemma wrel_chars : forall cs buf n, wrel (write_chars buf cs n) (write_chars buf cs n).
Proof. induction cs as [|c cs IH]; intros buf n; cbn [write_chars]; cbv zeta; repeat first [apply IH|wstep]. Qed.
Lemma wrel_acall : forall c, wrel (run_acall c) (run_acall c).
Proof.
  intros c. destruct c; cbn [run_acall];
    unfold append_single, append_array, append_direct, append_binary_reader, append_binary_iter, append_string_iter, initialize_array, initialize_special, finalize_array, finalize_special,
      write_array_header, write_type_code, write_elements, write_zlib, count_elements; cbv zeta;
    repeat first [apply wrel_update|apply wrel_io_copy|apply wrel_chars|wstep].
Qed.
Lemma wrel_write_attributes : forall l, wrel (write_attributes l) (write_attributes l).
Proof. induction l as [|v l IH]; cbn [write_attributes]; repeat first [exact IH|apply wrel_acall|wstep]. Qed.
Lemma wrel_next : forall f t v c, wrel (next_node f t v c) (next_node f t v c).
Proof. induction f as [|f IH]; intros t v c; cbn [next_node]; repeat first [apply IH|apply wrel_close|wstep]. Qed.
Lemma wrel_loop : forall f t c, wrel (write_loop f t c) (write_loop f t c).
Proof. induction f as [|f IH]; intros t c; cbn [write_loop]; repeat first [apply IH|apply wrel_new_node|apply wrel_write_attributes|apply wrel_next|wstep]. Qed.
Lemma wrel_tree : forall t, wrel (write_tree t) (write_tree t).
Proof. intros t. unfold write_tree. repeat first [apply wrel_loop|wstep]. Qed.
Context (Hflush : wrel flush flush).
Lemma wrel_finalize : forall b f, wrel (finalize_impl f ;> wwhen b flush) (finalize_impl f ;> wwhen b flush).
Proof. intros b f. unfold finalize_impl. repeat first [apply wrel_header|apply Hflush|wstep]. Qed.

(** ** Histories *)

(** Two lists of results: the same, or the same up to a place where they part. *)
Definition lrel (o1 o2 : outcome) : Prop := o1 = o2 \/
  exists pre a b l1 l2, fst o1 = pre ++ a :: l1 /\ fst o2 = pre ++ b :: l2 /\ esc (err_of a) (err_of b).
Definition srel (o1 o2 : list (res werr unit) * wstate) : Prop :=
  (fst o1 = fst o2 /\ agree (snd o1) (snd o2) /\ P (w_sink (snd o1)) /\ P (w_sink (snd o2))) \/
  exists pre a b l1 l2, fst o1 = pre ++ a :: l1 /\ fst o2 = pre ++ b :: l2 /\ esc (err_of a) (err_of b).

Lemma srel_one : forall A (m1 m2 : WM A), wrel m1 m2 -> forall s1 s2, agree s1 s2 -> P (w_sink s1) -> P (w_sink s2) ->
  srel ([forget (fst (m1 s1))], snd (m1 s1)) ([forget (fst (m2 s2))], snd (m2 s2)).
Proof.
  intros A m1 m2 H s1 s2 G P1 P2. destruct (H s1 s2 G P1 P2) as [(E & X)|E]; cbv zeta in *.
  - left. cbn [fst snd]. rewrite E. auto.
  - right. exists [], (forget (fst (m1 s1))), (forget (fst (m2 s2))), [], []. cbn [fst app]. split; [reflexivity|]. split; [reflexivity|].
    destruct (fst (m1 s1)), (fst (m2 s2)); exact E.
Qed.
Lemma forget_unit : forall r : res werr unit, forget r = r.
Proof. intros [[]|e|]; reflexivity. Qed.

Lemma acalls_srel : forall l s1 s2, agree s1 s2 -> P (w_sink s1) -> P (w_sink s2) -> srel (run_acalls l s1) (run_acalls l s2).
Proof.
  induction l as [|c l IH]; intros s1 s2 G P1 P2; cbn [run_acalls]; [left; cbn; auto|].
  pose proof (wrel_acall c s1 s2 G P1 P2) as H. cbv zeta in H. destruct (run_acall c s1) as [r1 t1]. destruct (run_acall c s2) as [r2 t2]. cbn [fst snd] in H.
  destruct H as [(-> & G' & Q1 & Q2)|E].
  - specialize (IH t1 t2 G' Q1 Q2). destruct (run_acalls l t1) as [rs1 u1]. destruct (run_acalls l t2) as [rs2 u2].
    destruct r2 as [v|w|]; [| |left; cbn; auto].
    all: (destruct IH as [(A & B)|(pre & a & b & l1 & l2 & A & B & C)]; cbn [fst snd] in *; subst;
          [left; cbn [fst snd]; auto|right; eexists (_ :: pre), a, b, l1, l2; cbn [fst app]; auto]).
  - destruct (run_acalls l t1) as [rs1 u1]. destruct (run_acalls l t2) as [rs2 u2]. right. destruct r1, r2; eexists [], _, _, _, _; cbn [fst app]; repeat split; exact E.
Qed.
Lemma wcall_srel : forall c s1 s2, agree s1 s2 -> P (w_sink s1) -> P (w_sink s2) -> srel (run_wcall c s1) (run_wcall c s2).
Proof.
  intros [name attrs|] s1 s2 G P1 P2; cbn [run_wcall].
  - pose proof (wrel_new_node name s1 s2 G P1 P2) as H. cbv zeta in H. destruct (new_node name s1) as [r1 t1]. destruct (new_node name s2) as [r2 t2]. cbn [fst snd] in H.
    destruct H as [(-> & G' & Q1 & Q2)|E].
    + destruct r2 as [[]|e|]; [|left; cbn; auto|left; cbn; auto]. pose proof (acalls_srel attrs t1 t2 G' Q1 Q2) as H.
      destruct (run_acalls attrs t1) as [rs1 u1]. destruct (run_acalls attrs t2) as [rs2 u2].
      destruct H as [(A & B)|(pre & a & b & l1 & l2 & A & B & C)]; cbn [fst snd] in *; subst;
        [left; cbn [fst snd]; auto|right; eexists (_ :: pre), a, b, l1, l2; cbn [fst app]; auto].
    + right. destruct (run_acalls attrs t1) as [rs1 u1]. destruct (run_acalls attrs t2) as [rs2 u2].
      destruct r1 as [[]|e1|], r2 as [[]|e2|]; eexists [], _, _, _, _; cbn [fst app]; repeat split; exact E.
  - pose proof (srel_one _ _ _ wrel_close s1 s2 G P1 P2) as H. destruct (close_node s1) as [r1 t1]. destruct (close_node s2) as [r2 t2].
    cbn [fst snd] in H. rewrite !forget_unit in H. exact H.
Qed.
Lemma wstep_srel : forall c s1 s2, agree s1 s2 -> P (w_sink s1) -> P (w_sink s2) -> srel (run_wstep c s1) (run_wstep c s2).
Proof.
  intros [c|t] s1 s2 G P1 P2; cbn [run_wstep]; [apply wcall_srel; assumption|].
  pose proof (srel_one _ _ _ (wrel_tree t) s1 s2 G P1 P2) as H. destruct (write_tree t s1) as [r1 t1]. destruct (write_tree t s2) as [r2 t2].
  cbn [fst snd] in H. rewrite !forget_unit in H. exact H.
Qed.
Lemma agree_file : forall s1 s2, agree s1 s2 -> file_of s1 = file_of s2.
Proof. intros s1 s2 (A & B & _). unfold file_of. rewrite A, B. reflexivity. Qed.

Lemma wsteps_lrel : forall fin l s1 s2, agree s1 s2 -> P (w_sink s1) -> P (w_sink s2) -> lrel (run_wsteps l fin s1) (run_wsteps l fin s2).
Proof.
  intros fin. induction l as [|c l IH]; intros s1 s2 G P1 P2; cbn [run_wsteps].
  - destruct fin as [[b f]|]; [|left; rewrite (agree_file s1 s2 G); reflexivity]. unfold finalize.
    pose proof (srel_one _ _ _ (wrel_finalize b f) s1 s2 G P1 P2) as H.
    assert (X : forall s, (let '(r, s') := match (finalize_impl f ;> wwhen b flush) s with (Ok _, s') => (Ok (w_sink s'), s') | (Err e, s') => (Err e, s') | (Panic, s') => (Panic, s') end in ([forget r], file_of s')) =
      ([forget (fst ((finalize_impl f ;> wwhen b flush) s))], file_of (snd ((finalize_impl f ;> wwhen b flush) s)))).
    { intros s. destruct ((finalize_impl f ;> wwhen b flush) s) as [[u|e|] s']; reflexivity. }
    rewrite !X. clear X.
    destruct H as [(A & B & _)|H]; [left|right; exact H]. cbn [fst snd] in *. rewrite A, (agree_file _ _ B). reflexivity.
  - pose proof (wstep_srel c s1 s2 G P1 P2) as H. destruct (run_wstep c s1) as [rs1 t1]. destruct (run_wstep c s2) as [rs2 t2]. destruct H as [(A & B & Q1 & Q2)|(pre & a & b & l1 & l2 & A & B & C)]; cbn [fst snd] in *; subst.
    + destruct (existsb is_panic rs2); [left; rewrite (agree_file _ _ B); reflexivity|]. specialize (IH t1 t2 B Q1 Q2).
      destruct (run_wsteps l fin t1) as [x1 y1]. destruct (run_wsteps l fin t2) as [x2 y2].
      destruct IH as [E|(pre & a & b & l1 & l2 & A & A' & C)]; [left; injection E as -> ->; reflexivity|]. cbn [fst] in A, A'. subst.
      right. exists (rs2 ++ pre), a, b, l1, l2. cbn [fst]. rewrite <- !app_assoc. auto.
    + right. exists pre, a, b. assert (X : forall r s, exists l', fst (if existsb is_panic (pre ++ r) then (pre ++ r, file_of s) else let '(rs', x) := run_wsteps l fin s in ((pre ++ r) ++ rs', x)) = pre ++ r ++ l').
      { intros r s. destruct (existsb is_panic (pre ++ r)); [exists []; cbn [fst]; rewrite app_nil_r; reflexivity|].
        destruct (run_wsteps l fin s) as [rs' x]. exists rs'. cbn [fst]. rewrite app_assoc. reflexivity. }
      destruct (X (a :: l1) t1) as (z1 & Z1). destruct (X (b :: l2) t2) as (z2 & Z2). exists (l1 ++ z1), (l2 ++ z2).
      split; [exact Z1|]. split; [exact Z2|exact C].
Qed.

Lemma session_lrel : forall k1 k2 ver l fin, k_data k1 = k_data k2 -> k_flush k1 = k_flush k2 -> P k1 -> P k2 ->
  (forall p s1 s2, k_data (w_sink s1) = k_data (w_sink s2) -> k_flush (w_sink s1) = k_flush (w_sink s2) -> w_ver s1 = w_ver s2 -> w_open s1 = w_open s2 ->
     P (w_sink s1) -> P (w_sink s2) ->
     (fst (seek p s1) = fst (seek p s2) /\ agree (snd (seek p s1)) (snd (seek p s2)) /\ P (w_sink (snd (seek p s1))) /\ P (w_sink (snd (seek p s2)))) \/
     esc (err_of (fst (seek p s1))) (err_of (fst (seek p s2)))) ->
  lrel (session k1 ver l fin) (session k2 ver l fin).
Proof.
  intros k1 k2 ver l fin D F P1 P2 HS. unfold session, new_writer. destruct (negb _); [left; reflexivity|].
  set (s1 := mkW k1 ver []). set (s2 := mkW k2 ver []). specialize (HS 0%N s1 s2 D F eq_refl eq_refl P1 P2).
  set (m := write magic ;> write (le_enc 4 ver)). assert (W : wrel m m) by (unfold m; repeat wstep).
  assert (H : let r1 := (seek 0 ;> m) s1 in let r2 := (seek 0 ;> m) s2 in
    (fst r1 = fst r2 /\ agree (snd r1) (snd r2) /\ P (w_sink (snd r1)) /\ P (w_sink (snd r2))) \/ esc (err_of (fst r1)) (err_of (fst r2))).
  { cbv zeta. unfold wbind. destruct (seek 0 s1) as [r1 t1]. destruct (seek 0 s2) as [r2 t2]. cbn [fst snd] in HS. destruct HS as [(-> & G & Q1 & Q2)|E].
    - destruct r2 as [u|e|]; [apply W; assumption|left; cbn; auto|left; cbn; auto].
    - right. eapply Hesc; [exact E| |].
      + destruct r1; cbn [err_of fst]; intros X; try reflexivity; exfalso; apply X; reflexivity.
      + destruct r2; cbn [err_of fst]; intros X; try reflexivity; exfalso; apply X; reflexivity. }
  cbv zeta in H. destruct ((seek 0 ;> m) s1) as [x1 u1]. destruct ((seek 0 ;> m) s2) as [x2 u2]. cbn [fst snd] in H. destruct H as [(-> & G' & R1 & R2)|E].
  - destruct x2 as [v|e|]; [|left; reflexivity|left; reflexivity]. pose proof (wsteps_lrel fin l u1 u2 G' R1 R2) as H.
    destruct (run_wsteps l fin u1) as [a1 b1]. destruct (run_wsteps l fin u2) as [a2 b2].
    destruct H as [H|(pre & a & b & l1 & l2 & A & A' & C)]; [left; injection H as -> ->; reflexivity|]. cbn [fst] in A, A'. subst.
    right. exists (Ok tt :: pre), a, b, l1, l2. auto.
  - right. exists [], (forget x1), (forget x2). destruct x1 as [v1|e1|], x2 as [v2|e2|]; destruct (run_wsteps l fin u1) as [a1 b1]; destruct (run_wsteps l fin u2) as [a2 b2];
      do 2 eexists; (split; [reflexivity|split; [reflexivity|exact E]]).
Qed.
End Rel.

(** ** The sink operations *)
Lemma put_put : forall pos a b data, put (pos + lenN a) b (put pos a data) = put pos (a ++ b) data.
Proof.
  intros pos a b data. unfold put at 2 3.
  assert (L : lenN (takeN pos data ++ zeros (N.to_nat (pos - lenN data))) = pos).
  { rewrite lenN_app, lenN_takeN. unfold lenN at 2. rewrite zeros_length. lia. }
  rewrite app_assoc, (app_assoc (takeN pos data) (zeros _) ((a ++ b) ++ _)).
  set (pre := takeN pos data ++ zeros (N.to_nat (pos - lenN data))) in *. clearbody pre. rewrite <- L at 1 2.
  rewrite (app_assoc pre a), <- lenN_app, put_at, dropN_dropN, lenN_app, <- !app_assoc. rewrite ?L, ?lenN_app, ?N.add_assoc. reflexivity.
Qed.
Lemma wr_done : forall sc bs data pos d p sc', wr sc bs data pos = (None, d, p, sc') ->
  p = (pos + lenN bs)%N /\ (bs <> [] -> d = put pos bs data) /\ (bs = [] -> d = data).
Proof.
  induction sc as [|a sc IH]; intros bs data pos d p sc' H; cbn [wr] in H; destruct bs as [|b bs].
  - injection H as <- <- <-. rewrite lenN_nil. repeat split; [lia|congruence].
  - destruct (_ <? _)%N; [|discriminate]. injection H as <- <- <-. repeat split. discriminate.
  - injection H as <- <- <-. rewrite lenN_nil. repeat split; [lia|congruence].
  - destruct a as [k| | |c]; [|apply IH in H; exact H|discriminate|discriminate].
    destruct (_ <? _)%N; [|discriminate]. set (x := firstn (Pos.to_nat k) (b :: bs)) in *. set (y := skipn (Pos.to_nat k) (b :: bs)) in *.
    assert (S : b :: bs = x ++ y) by (symmetry; apply firstn_skipn). rewrite S. clearbody x y. apply IH in H. destruct H as (A & B & C).
    rewrite A, lenN_app. repeat split; [lia| |].
    + intros _. destruct y as [|y0 y]; [rewrite C, app_nil_r; reflexivity|]. rewrite B, put_put by discriminate. reflexivity.
    + intros X. rewrite X in S. discriminate S.
Qed.
Lemma wr_full : forall sc bs data pos e d p sc', existsb wfails sc = false -> wr sc bs data pos = (e, d, p, sc') ->
  existsb wfails sc' = false /\ e = (if match bs with [] => true | _ => (pos + lenN bs <? pow2_63)%N end then None else Some too_big).
Proof.
  induction sc as [|a sc IH]; intros bs data pos e d p sc' F H; cbn [wr] in H; destruct bs as [|b bs].
  - injection H as <- <- <- <-. auto.
  - destruct (_ <? _)%N; injection H as <- <- <- <-; auto.
  - injection H as <- <- <- <-. auto.
  - destruct a as [k| | |c]; cbn [existsb wfails orb] in F; try discriminate; [|apply IH in H; auto].
    set (x := firstn (Pos.to_nat k) (b :: bs)) in *. set (y := skipn (Pos.to_nat k) (b :: bs)) in *.
    assert (S : b :: bs = x ++ y) by (symmetry; apply firstn_skipn).
    assert (LX : lenN (b :: bs) = (lenN x + lenN y)%N) by (rewrite S; apply lenN_app). clearbody x y. rewrite LX.
    destruct (pos + lenN x <? pow2_63)%N eqn:E.
    + apply IH in H; [|exact F]. destruct H as [H1 H2]. split; [exact H1|]. rewrite H2. destruct y as [|y0 y]; [rewrite lenN_nil; replace (pos + (lenN x + 0))%N with (pos + lenN x)%N by lia; rewrite E; reflexivity|].
      rewrite N.add_assoc. reflexivity.
    + injection H as <- <- <- <-. split; [exact F|]. replace (pos + (lenN x + lenN y) <? pow2_63)%N with false by lia. reflexivity.
Qed.

(** Sinks that take every byte in the end. *)
Definition esc_full (a b : option werr) : Prop := exists e, (e = WIo too_big \/ e = Compression too_big) /\ a = Some e /\ b = Some e.
Lemma full_lasting : lasting esc_full.
Proof. intros a b a' b' (e & He & A & B) HA HB. exists e. rewrite HA, HB; subst; auto; discriminate. Qed.
Lemma full_write : forall wrap bs, wrap = WIo \/ wrap = Compression -> wrel wgood esc_full (write_as wrap bs) (write_as wrap bs).
Proof.
  intros wrap bs HW s1 s2 (A & B & C & D & E) [W1 K1] [W2 K2]. unfold write_as. cbv zeta. rewrite A, B.
  destruct (wr (k_writes (w_sink s1)) bs _ _) as [[[e1 d1] p1] sc1] eqn:E1. destruct (wr (k_writes (w_sink s2)) bs _ _) as [[[e2 d2] p2] sc2] eqn:E2.
  destruct (wr_full _ _ _ _ _ _ _ _ W1 E1) as [G1 F1]. destruct (wr_full _ _ _ _ _ _ _ _ W2 E2) as [G2 F2]. cbn [fst snd].
  destruct (match bs with [] => true | _ => _ end); subst e1 e2.
  - left. apply wr_done in E1. apply wr_done in E2. destruct E1 as (-> & X1 & Y1). destruct E2 as (-> & X2 & Y2).
    assert (d1 = d2) as -> by (destruct bs; [rewrite Y1, Y2 by reflexivity; reflexivity|rewrite X1, X2 by discriminate; reflexivity]).
    unfold agree, wgood. cbn. repeat split; auto.
  - right. exists (wrap too_big). cbn [err_of]. destruct HW as [-> | ->]; auto.
Qed.
Lemma full_seek_any : forall p s1 s2, k_data (w_sink s1) = k_data (w_sink s2) -> k_flush (w_sink s1) = k_flush (w_sink s2) -> w_ver s1 = w_ver s2 -> w_open s1 = w_open s2 ->
  wgood (w_sink s1) -> wgood (w_sink s2) ->
  (fst (seek p s1) = fst (seek p s2) /\ agree (snd (seek p s1)) (snd (seek p s2)) /\ wgood (w_sink (snd (seek p s1))) /\ wgood (w_sink (snd (seek p s2)))) \/
  esc_full (err_of (fst (seek p s1))) (err_of (fst (seek p s2))).
Proof.
  intros p s1 s2 A C D E [W1 K1] [W2 K2]. left. unfold seek, k_seek. destruct (k_seeks (w_sink s1)) as [|[c1|] q1]; [|discriminate K1|]; (destruct (k_seeks (w_sink s2)) as [|[c2|] q2]; [|discriminate K2|]);
    unfold agree, wgood; cbn in *; rewrite ?A, ?C, ?D, ?E; auto 12.
Qed.
Lemma full_seek : forall p, wrel wgood esc_full (seek p) (seek p).
Proof. intros p s1 s2 (A & B & C & D & E) W1 W2. apply full_seek_any; assumption. Qed.
Lemma full_tell : wrel wgood esc_full tell tell.
Proof.
  intros s1 s2 (A & B & C & D & E) [W1 K1] [W2 K2]. left. unfold tell, k_seek. destruct (k_seeks (w_sink s1)) as [|[c1|] q1]; [|discriminate K1|]; (destruct (k_seeks (w_sink s2)) as [|[c2|] q2]; [|discriminate K2|]);
    unfold agree, wgood; cbn in *; rewrite ?A, ?B, ?C, ?D, ?E; auto 12.
Qed.
Lemma full_flush : wrel wgood esc_full flush flush.
Proof. intros s1 s2 G W1 W2. left. unfold flush. assert (F : k_flush (w_sink s1) = k_flush (w_sink s2)) by apply G. rewrite F. destruct (k_flush (w_sink s2)); cbn; auto. Qed.

(** Any sinks. *)
Definition io_err (o : option werr) : Prop := exists e, o = Some (WIo e) \/ o = Some (Compression e).
Definition esc_io (a b : option werr) : Prop := io_err a \/ io_err b.
Definition any_sink (k : sink) : Prop := True.
Lemma io_err_failed : forall r, io_err (err_of r) -> io_failed r = true.
Proof. intros r (e & [H|H]); destruct r; try discriminate H; injection H as ->; reflexivity. Qed.
Lemma io_lasting : lasting esc_io.
Proof. intros a b a' b' [(e & H)|(e & H)] HA HB; [left|right]; exists e; [rewrite HA|rewrite HB]; auto; destruct H; subst; discriminate. Qed.
Lemma io_write : forall wrap bs, wrap = WIo \/ wrap = Compression -> wrel any_sink esc_io (write_as wrap bs) (write_as wrap bs).
Proof.
  intros wrap bs HW s1 s2 (A & B & C & D & E) _ _. unfold write_as. cbv zeta. rewrite A, B.
  destruct (wr (k_writes (w_sink s1)) bs _ _) as [[[[e1|] d1] p1] sc1] eqn:E1; [right; left; exists e1; destruct HW as [-> | ->]; auto|].
  destruct (wr (k_writes (w_sink s2)) bs _ _) as [[[[e2|] d2] p2] sc2] eqn:E2; [right; right; exists e2; destruct HW as [-> | ->]; auto|]. left. cbn [fst snd].
  apply wr_done in E1. apply wr_done in E2. destruct E1 as (-> & X1 & Y1). destruct E2 as (-> & X2 & Y2).
  assert (d1 = d2) as -> by (destruct bs; [rewrite Y1, Y2 by reflexivity; reflexivity|rewrite X1, X2 by discriminate; reflexivity]).
  unfold agree, any_sink. cbn. repeat split; auto.
Qed.
Lemma io_seek_any : forall p s1 s2, k_data (w_sink s1) = k_data (w_sink s2) -> k_flush (w_sink s1) = k_flush (w_sink s2) -> w_ver s1 = w_ver s2 -> w_open s1 = w_open s2 ->
  any_sink (w_sink s1) -> any_sink (w_sink s2) ->
  (fst (seek p s1) = fst (seek p s2) /\ agree (snd (seek p s1)) (snd (seek p s2)) /\ any_sink (w_sink (snd (seek p s1))) /\ any_sink (w_sink (snd (seek p s2)))) \/
  esc_io (err_of (fst (seek p s1))) (err_of (fst (seek p s2))).
Proof.
  intros p s1 s2 A C D E _ _. unfold seek, k_seek. destruct (k_seeks (w_sink s1)) as [|[c1|] q1]; [|right; left; exists (IoOther c1); auto|];
    (destruct (k_seeks (w_sink s2)) as [|[c2|] q2]; [|right; right; exists (IoOther c2); auto|]); left; unfold agree, any_sink; cbn in *; rewrite ?A, ?C, ?D, ?E; auto 12.
Qed.
Lemma io_seek : forall p, wrel any_sink esc_io (seek p) (seek p).
Proof. intros p s1 s2 (A & B & C & D & E) W1 W2. apply io_seek_any; assumption. Qed.
Lemma io_tell : wrel any_sink esc_io tell tell.
Proof.
  intros s1 s2 (A & B & C & D & E) _ _. unfold tell, k_seek. destruct (k_seeks (w_sink s1)) as [|[c1|] q1]; [|right; left; exists (IoOther c1); auto|];
    (destruct (k_seeks (w_sink s2)) as [|[c2|] q2]; [|right; right; exists (IoOther c2); auto|]); left; unfold agree, any_sink; cbn in *; rewrite ?A, ?B, ?C, ?D, ?E; auto 12.
Qed.
Lemma io_flush : wrel any_sink esc_io flush flush.
Proof. intros s1 s2 G W1 W2. left. unfold flush. assert (F : k_flush (w_sink s1) = k_flush (w_sink s2)) by apply G. rewrite F. destruct (k_flush (w_sink s2)); cbn; auto. Qed.

(** ** C78 *)

(** Two sinks with the same content take the bytes in pieces of different sizes, with
    interruptions or without, and do not fail.  Then every call of a session has the same
    result with both, and the same bytes are in them in the end, unless the file grows beyond
    2^63-1 bytes. *)
Theorem C78_pieces : forall k1 k2 ver l fin, wgood k1 -> wgood k2 -> k_data k1 = k_data k2 -> k_flush k1 = k_flush k2 ->
  Forall (fun r => ~ overfull r) (fst (session k1 ver l fin)) ->
  session k1 ver l fin = session k2 ver l fin.
Proof.
  intros k1 k2 ver l fin W1 W2 D F N.
  destruct (session_lrel wgood esc_full full_lasting full_write full_tell full_seek full_flush k1 k2 ver l fin D F W1 W2 full_seek_any)
    as [H|(pre & a & b & l1 & l2 & A & B & (e & He & Ea & Eb))]; [exact H|].
  exfalso. rewrite A in N. apply Forall_app in N. destruct N as [_ N]. inversion N as [|x y Na _]; subst. apply Na.
  destruct a; try discriminate Ea. injection Ea as ->. unfold overfull. destruct He as [-> | ->]; auto.
Qed.

(** Two sinks with the same content behave in any way.  As long as no call reports an I/O
    error with either, all results are the same. *)
Theorem C78_until_failure : forall k1 k2 ver l fin n, k_data k1 = k_data k2 -> k_flush k1 = k_flush k2 ->
  existsb io_failed (firstn n (fst (session k1 ver l fin))) = false ->
  existsb io_failed (firstn n (fst (session k2 ver l fin))) = false ->
  firstn n (fst (session k1 ver l fin)) = firstn n (fst (session k2 ver l fin)).
Proof.
  intros k1 k2 ver l fin n D F N1 N2.
  destruct (session_lrel any_sink esc_io io_lasting io_write io_tell io_seek io_flush k1 k2 ver l fin D F I I io_seek_any)
    as [H|(pre & a & b & l1 & l2 & A & B & C)]; [rewrite H; reflexivity|]. rewrite A in *. rewrite B in *. rewrite !firstn_app in *.
  destruct (n - length pre)%nat as [|m] eqn:EM; [cbn [firstn]; reflexivity|]. exfalso. rewrite existsb_app in N1, N2. cbn [firstn existsb] in N1, N2.
  apply orb_false_iff in N1. apply orb_false_iff in N2. destruct N1 as [_ N1]. destruct N2 as [_ N2]. apply orb_false_iff in N1. apply orb_false_iff in N2.
  destruct N1 as [N1 _]. destruct N2 as [N2 _]. destruct C as [C|C]; apply io_err_failed in C; congruence.
Qed.

(** If no call reports one at all, the files are the same, too. *)
Theorem C78_no_failure : forall k1 k2 ver l fin, k_data k1 = k_data k2 -> k_flush k1 = k_flush k2 ->
  existsb io_failed (fst (session k1 ver l fin)) = false -> existsb io_failed (fst (session k2 ver l fin)) = false ->
  session k1 ver l fin = session k2 ver l fin.
Proof.
  intros k1 k2 ver l fin D F N1 N2.
  destruct (session_lrel any_sink esc_io io_lasting io_write io_tell io_seek io_flush k1 k2 ver l fin D F I I io_seek_any)
    as [H|(pre & a & b & l1 & l2 & A & B & C)]; [exact H|]. exfalso. rewrite A in N1. rewrite B in N2. rewrite existsb_app in N1, N2. cbn [existsb] in N1, N2.
  apply orb_false_iff in N1. apply orb_false_iff in N2. destruct N1 as [_ N1]. destruct N2 as [_ N2]. apply orb_false_iff in N1. apply orb_false_iff in N2.
  destruct N1 as [N1 _]. destruct N2 as [N2 _]. destruct C as [C|C]; apply io_err_failed in C; congruence.
Qed.
End Spec.

(** ** Concrete cases *)
Module SinkRelCases.
Import PropsWriter.Cases.
Definition slow_sink : sink := mkSink (repeat xaa 40) 7 (concat (repeat [WChunk 1; WIntr; WChunk 2; WIntr; WIntr] 60)) [] None.
Definition fast_sink : sink := mkSink (repeat xaa 40) 0 [] [None] None.
(** Calls that succeed and calls that do not (there is no node to close; a name of 300 bytes; an
    iterator that fails), a whole tree, and the end of the file. *)
Definition steps : list wstep :=
  map StepCall (calls0 ++ [CNode (repeat x61 300) []; CNode s_b [AArray (Some EncZlib) (LF64 [1; 2]%N) true]; CClose]) ++ [StepTree PropsTree.Cases.sample].
Definition fin : option (bool * wfooter) := Some (true, mkWF None PadDefault None None).
Example C78_pieces_ex : wgood slow_sink /\ wgood fast_sink /\ k_data slow_sink = k_data fast_sink /\
  Forall (fun r => ~ overfull r) (fst (session (env := release) slow_sink 7400 steps fin)) /\
  In (Err NoNodesToClose) (fst (session (env := release) slow_sink 7400 steps fin)) /\
  In (Err (NodeNameTooLong 300)) (fst (session (env := release) slow_sink 7400 steps fin)) /\
  In (Err UserDefined) (fst (session (env := release) slow_sink 7400 steps fin)) /\
  option_map (fun x => snd x) (snd (session (env := release) slow_sink 7400 steps fin)) = Some 496%N /\
  session (env := release) slow_sink 7400 steps fin = session (env := release) fast_sink 7400 steps fin.
Proof.
  split; [split; vm_compute; reflexivity|]. split; [split; vm_compute; reflexivity|]. split; [reflexivity|].
  set (o := session (env := release) slow_sink 7400 steps fin). vm_compute in o. split.
  { unfold o. cbn [fst]. repeat apply Forall_cons; try apply Forall_nil; intros [H|H]; discriminate H. }
  split; [unfold o; cbn [fst In]; auto 40|]. split; [unfold o; cbn [fst In]; auto 40|]. split; [unfold o; cbn [fst In]; auto 40|].
  split; [reflexivity|]. vm_compute. reflexivity.
Qed.

(** A sink that fails after some bytes: the results up to there are those with the other. *)
Definition full_disk : sink := mkSink (repeat xaa 40) 0 (repeat (WChunk 4) 40 ++ repeat (WFail 28) 9) [] None.
Definition good_results : nat := 8.
Example C78_until_failure_ex :
  existsb io_failed (firstn good_results (fst (session (env := release) full_disk 7400 steps fin))) = false /\
  existsb io_failed (fst (session (env := release) fast_sink 7400 steps fin)) = false /\
  nth_error (fst (session (env := release) full_disk 7400 steps fin)) good_results = Some (Err (WIo (IoOther 28))) /\
  firstn good_results (fst (session (env := release) full_disk 7400 steps fin)) = firstn good_results (fst (session (env := release) fast_sink 7400 steps fin)).
Proof. vm_compute. auto. Qed.
End SinkRelCases.
