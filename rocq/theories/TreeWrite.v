(** [write_tree] makes the calls of the document under the root. *)
Require Import Coq.Lists.List Coq.Arith.PeanoNat Coq.NArith.NArith Coq.Bool.Bool Lia.
Require Import Coq.Init.Byte.
Require Import Verif.Base Verif.Utf8 Verif.Types Verif.Io Verif.Parser Verif.Spec Verif.Loaders Verif.Writer Verif.WriterSpec Verif.WriterTotal Verif.Tree Verif.TreeFacts Verif.TreeSpec Verif.TreeLinks Verif.TreeOps Verif.TreePaths Verif.PropsTree Verif.PropsTreeEq Verif.PropsTraverse Verif.TreeIo Verif.TreeIoSpec.
Import ListNotations.
Local Open Scope nat_scope.
Local Open Scope list_scope.

Section WithEnv.
Context {env : Env}.
Local Open Scope writer_scope.

Lemma wbind_assoc : forall A B C (m : WM A) (f : A -> WM B) (g : B -> WM C) s,
  wbind (wbind m f) g s = wbind m (fun a => wbind (f a) g) s.
Proof. intros. unfold wbind. destruct (m s) as [[a|e|] s']; reflexivity. Qed.
Lemma wbind_ext : forall A B (m : WM A) (f g : A -> WM B) s, (forall a s', f a s' = g a s') -> wbind m f s = wbind m g s.
Proof. intros A B m f g s H. unfold wbind. destruct (m s) as [[a|e|] s']; auto. Qed.
Lemma wbind_ret : forall A B (a : A) (f : A -> WM B) s, wbind (wret a) f s = f a s.
Proof. reflexivity. Qed.

(** ** Calls for events of a traversal *)
Section Tree.
Context (t : tree).

Definition ev_wm (e : dft) : WM unit :=
  match e with
  | DOpen i => match name t i, attributes t i with
               | Some nm, Some ats => new_node nm ;> write_attributes ats
               | _, _ => wpanic
               end
  | DClose _ => close_node
  end.
Fixpoint evs_wm (l : list dft) : WM unit :=
  match l with [] => wret tt | e :: l' => ev_wm e ;> evs_wm l' end.

Definition opens (l : list dft) : nat := length (filter is_open l).
Definition closes (l : list dft) : nat := length (filter is_close l).
Definition off_root (l : list dft) : Prop := Forall (fun e => dft_id e <> tr_root t) l.

Definition go_on (m : nat) (r : option nat) : WM unit := match r with Some c => write_loop m t c | None => wret tt end.

Lemma loop_events : forall E,
  (forall m i s, chain t (DOpen i :: E ++ [DClose (tr_root t)]) -> off_root (DOpen i :: E) ->
     opens (DOpen i :: E) <= m -> closes E <= length (tr_arena t) ->
     write_loop m t i s = evs_wm (DOpen i :: E) s) /\
  (forall n m c s, chain t (DClose c :: E ++ [DClose (tr_root t)]) -> off_root (DClose c :: E) ->
     opens E <= m -> closes (DClose c :: E) <= n -> closes (DClose c :: E) <= length (tr_arena t) ->
     wbind (next_node n t false c) (go_on m) s = evs_wm (DClose c :: E) s).
Proof.
  induction E as [|e E [IHo IHc]].
  - split.
    + intros m i s [[H _] _] O _ _. exfalso. cbn in H. inversion O as [|? ? O1 _]; subst. cbn in O1.
      destruct (first_child t i); [discriminate|]. congruence.
    + intros n m c s [[H _] _] O _ Hn _. cbn in Hn. destruct n as [|n]; [lia|]. cbn [next_node].
      cbn in H. destruct (next_sibling t c); [discriminate|]. destruct (parent t c) as [p|]; [|discriminate]. cbn in H. injection H as ->.
      rewrite Nat.eqb_refl, wbind_assoc. reflexivity.
  - split.
    + intros m i s [[H _] HC] O Hm Hk. cbn [app] in HC. inversion O as [|? ? O1 O2]; subst. cbn in O1.
      unfold opens in Hm. cbn [filter is_open length] in Hm. destruct m as [|m]; [lia|].
      cbn [write_loop]. change (evs_wm (DOpen i :: e :: E)) with (ev_wm (DOpen i) ;> evs_wm (e :: E)). cbn [ev_wm].
      destruct (name t i) as [nm|]; [|reflexivity]. destruct (attributes t i) as [ats|]; [|reflexivity].
      rewrite wbind_assoc. apply wbind_ext. intros _ s1. apply wbind_ext. intros _ s2.
      change (fun n => match n with Some c => write_loop m t c | None => wret tt end) with (go_on m).
      cbn [dft_next] in H. remember (length (tr_arena t)) as N eqn:EN. cbn [next_node]. destruct (first_child t i) as [k|] eqn:EF.
      * injection H as <-. rewrite wbind_ret. cbn [go_on]. apply IHo; auto.
        -- exact (le_S_n _ _ Hm).
      * injection H as <-. inversion O2; subst. change (closes (DClose i :: E)) with (S (closes E)) in Hk.
        cbn [filter is_open length] in Hm.
        specialize (IHc (S (length (tr_arena t))) m i s2 HC O2). cbn [next_node] in IHc. apply IHc; [unfold opens; lia| |]; change (closes (DClose i :: E)) with (S (closes E)); lia.
    + intros n m c s [[H _] HC] O Hm Hn Hk. cbn [app] in HC. inversion O as [|? ? O1 O2]; subst. cbn in O1.
      change (closes (DClose c :: e :: E)) with (S (closes (e :: E))) in Hn, Hk. destruct n as [|n]; [lia|].
      cbn [next_node]. change (evs_wm (DClose c :: e :: E)) with (close_node ;> evs_wm (e :: E)). rewrite wbind_assoc. apply wbind_ext. intros _ s1.
      cbn [dft_next] in H. destruct (next_sibling t c) as [b|].
      * injection H as <-. rewrite wbind_ret. cbn [go_on]. apply IHo; auto. change (closes (DOpen b :: E)) with (closes E) in Hk. lia.
      * destruct (parent t c) as [p|]; [|discriminate]. cbn in H. injection H as <-. inversion O2 as [|? ? O3 O4]; subst. cbn in O3.
        apply Nat.eqb_neq in O3. rewrite O3. apply Nat.eqb_neq in O3. apply IHc; auto; lia.
Qed.

Lemma evs_app : forall l m s, evs_wm (l ++ m) s = wbind (evs_wm l) (fun _ => evs_wm m) s.
Proof. induction l as [|e l IH]; intros m s; [reflexivity|]. cbn [app evs_wm]. rewrite wbind_assoc. apply wbind_ext. intros _ s'. apply IH. Qed.

Lemma try_app : forall l m s, try_wcalls (l ++ m) s = wbind (try_wcalls l) (fun _ => try_wcalls m) s.
Proof. induction l as [|e l IH]; intros m s; [reflexivity|]. cbn [app try_wcalls]. rewrite wbind_assoc. apply wbind_ext. intros _ s'. apply IH. Qed.

Lemma write_attributes_calls : forall ats s, write_attributes ats s = try_acalls (map call_of (map (fun v => mkAttr v false) ats)) s.
Proof.
  induction ats as [|v ats IH]; intros s; [reflexivity|]. cbn [write_attributes map try_acalls].
  assert (E : call_of_value v = call_of (mkAttr v false)) by (destruct v; reflexivity). rewrite E. apply wbind_ext. intros _ s'. apply IH.
Qed.

(** The events of a subtree make the calls of its document. *)
Lemma evs_doc : forall r d s, rose_at t r -> doc_at t (rose_id r) d -> evs_wm (dfs r) s = try_wcalls (calls_of (plain_node d)) s.
Proof.
  induction r as [i ks IH] using rose_ind'. intros d s R D. cbn [rose_id] in D.
  inversion R as [? ? Hi E F]; subst. inversion D as [? nm ats ds N1 A1 K1]; subst. cbn [dfs plain_node calls_of evs_wm try_wcalls ev_wm try_wcall].
  rewrite N1, A1. rewrite !wbind_assoc. apply wbind_ext. intros _ s1.
  transitivity (wbind (try_acalls (map call_of (map (fun v => mkAttr v false) ats))) (fun _ => evs_wm (flat_map dfs ks ++ [DClose i])) s1).
  { unfold wbind. rewrite write_attributes_calls. reflexivity. }
  apply wbind_ext. intros _ s2.
  rewrite evs_app, try_app. cbn [evs_wm try_wcalls ev_wm try_wcall].
  assert (K : forall s, evs_wm (flat_map dfs ks) s = try_wcalls (flat_map calls_of (map plain_node ds)) s).
  { clear s s1 s2. rewrite E in K1. clear - IH F K1. revert ds K1. induction ks as [|k ks IHk]; intros ds K1 s.
    - inversion K1; subst. reflexivity.
    - cbn [map] in K1. inversion K1; subst. inversion IH; subst. inversion F; subst. cbn [flat_map map]. rewrite evs_app, try_app.
      unfold wbind. rewrite H2 with (d := y) by assumption. destruct (try_wcalls (calls_of (plain_node y)) s) as [[[]|x|] s2]; try reflexivity. apply IHk; auto. }
  unfold wbind. rewrite K. reflexivity.
Qed.

Lemma opens_closes : forall r, opens (dfs r) = length (ids r) /\ closes (dfs r) = length (ids r).
Proof.
  unfold opens, closes. induction r as [i ks IH] using rose_ind'. cbn [dfs ids]. 
  assert (G : length (filter is_open (flat_map dfs ks)) = length (flat_map ids ks) /\ length (filter is_close (flat_map dfs ks)) = length (flat_map ids ks)).
  { induction IH as [|k ks [H1 H2] _ IHk]; [auto|]. cbn [flat_map]. rewrite !filter_app, !app_length. lia. }
  destruct G as [G1 G2]. cbn [filter is_open is_close negb length]. rewrite !filter_app, !app_length. cbn [filter is_open is_close negb length]. lia.
Qed.
End Tree.

(** Writing a tree makes exactly the calls of the document under its root, in order, and
    stops at the first call that fails. *)
Lemma write_tree_calls : forall t d s, grown t -> doc_at t (tr_root t) d ->
  write_tree t s = try_wcalls (calls_of_all (map plain_node (match d with DNode _ _ ks => ks end))) s.
Proof.
  intros t d s G D. pose proof (built_wf _ (grown_built _ G)) as W. pose proof (wf_links _ W) as L.
  pose proof (wf_root _ W) as HR. pose proof (grown_acyclic _ G) as AC.
  destruct (rose_exists t L AC (tr_root t) HR) as (r & R & EI). destruct r as [i ks]. cbn in EI. subst i.
  inversion R as [? ? Hi E F]; subst. inversion D as [? nm ats ds N1 A1 K1]; subst.
  pose proof (dfs_chain t L _ R) as C. cbn [dfs] in C.
  assert (EV : evs_wm t (flat_map dfs ks) s = try_wcalls (calls_of_all (map plain_node ds)) s).
  { unfold calls_of_all. rewrite E in K1. clear - K1 F. revert ds s K1. induction ks as [|k ks IHk]; intros ds s K1.
    - inversion K1; subst. reflexivity.
    - cbn [map] in K1. inversion K1; subst. inversion F; subst. cbn [flat_map map]. rewrite evs_app, try_app.
      unfold wbind. rewrite (evs_doc t k y) by assumption. destruct (try_wcalls (calls_of (plain_node y)) s) as [[[]|x|] s2]; try reflexivity. apply IHk; auto. }
  rewrite <- EV. unfold write_tree. destruct (ends t L (tr_root t)) as [EF _]. rewrite EF, E.
  pose proof (ids_nodup t L AC _ R) as ND. cbn [ids] in ND. inversion ND as [|? ? NI ND']; subst.
  pose proof (ids_length t L AC _ R) as LN. cbn [ids length] in LN.
  destruct (opens_closes (Rose (tr_root t) ks)) as [O1 O2]. cbn [dfs ids length] in O1, O2. unfold opens, closes in O1, O2.
  cbn [filter is_open is_close negb length] in O1, O2. rewrite filter_app, app_length in O1, O2. cbn [filter is_open is_close negb length] in O1, O2.
  assert (OR : off_root t (flat_map dfs ks)).
  { apply Forall_forall. intros e He EQ. apply NI. rewrite <- EQ. apply in_flat_map in He as (k & Hk & He). apply in_flat_map. exists k. split; [exact Hk|]. apply dfs_in. exact He. }
  destruct ks as [|[c js] ks]; [reflexivity|]. cbn [map rose_id hd_error].
  cbn [flat_map dfs app] in *. destruct (loop_events t ((flat_map dfs js ++ [DClose c]) ++ flat_map dfs ks)) as [LE _].
  rewrite LE; auto.
  - destruct C as [_ C]. exact C.
  - unfold opens. lia.
  - unfold closes. cbn [filter is_close is_open negb length] in O2. lia.
Qed.

(** All calls succeed if the sequence does. *)
Lemma try_acalls_ok : forall l s s', try_acalls l s = (Ok tt, s') -> exists rs, run_acalls l s = (rs, s') /\ Forall (fun r => r = Ok tt) rs.
Proof.
  induction l as [|c l IH]; intros s s' H; cbn [try_acalls] in H.
  - injection H as <-. exists []. split; [reflexivity|constructor].
  - unfold wbind in H. cbn [run_acalls]. destruct (run_acall c s) as [[[]|e|] s1]; try discriminate.
    destruct (IH _ _ H) as (rs & E & R). rewrite E. eexists. split; [reflexivity|]. constructor; auto.
Qed.
Lemma no_panics : forall rs : list (res werr unit), Forall (fun r => r = Ok tt) rs -> existsb is_panic rs = false.
Proof. induction 1 as [|r l -> _ IH]; [reflexivity|exact IH]. Qed.
Lemma try_wcalls_ok : forall l s s', try_wcalls l s = (Ok tt, s') -> exists rs, run_wcalls l s = (rs, s') /\ Forall (fun r => r = Ok tt) rs.
Proof.
  induction l as [|c l IH]; intros s s' H; cbn [try_wcalls] in H.
  - injection H as <-. exists []. split; [reflexivity|constructor].
  - unfold wbind in H. destruct (try_wcall c s) as [[[]|e|] s1] eqn:E1; try discriminate.
    destruct (IH _ _ H) as (rs & E & R).
    assert (X : exists rs1, run_wcall c s = (rs1, s1) /\ Forall (fun r => r = Ok tt) rs1).
    { destruct c as [nm acs|]; cbn [try_wcall run_wcall] in *.
      - unfold wbind in E1. destruct (new_node nm s) as [[[]|e|] s2]; try discriminate. destruct (try_acalls_ok _ _ _ E1) as (rs1 & E2 & R2). rewrite E2.
        eexists. split; [reflexivity|]. constructor; auto.
      - rewrite E1. eexists. split; [reflexivity|]. repeat constructor. }
    destruct X as (rs1 & X1 & X2). cbn [run_wcalls]. rewrite X1, (no_panics _ X2), E. eexists. split; [reflexivity|]. apply Forall_app. auto.
Qed.
End WithEnv.
