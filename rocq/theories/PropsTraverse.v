(** C39: depth-first traversal. *)
Require Import Coq.Lists.List Coq.Arith.PeanoNat Coq.Bool.Bool Lia.
Require Import Verif.Base Verif.Types Verif.Tree Verif.TreeFacts Verif.TreeSpec Verif.TreeLinks Verif.TreeOps Verif.TreePaths Verif.PropsTree.
Import ListNotations.
Local Open Scope nat_scope.

Lemma dft_eqb_eq : forall a b, dft_eqb a b = true <-> a = b.
Proof. intros [i|i] [j|j]; cbn; rewrite ?Nat.eqb_eq; split; try congruence; discriminate. Qed.

Section Chain.
Context (t : tree) (L : linked t).

Definition adj (a b : dft) : Prop := dft_next t a = Some b /\ dft_prev t b = Some a.
Fixpoint chain (l : list dft) : Prop :=
  match l with
  | a :: (b :: _) as l' => adj a b /\ chain l'
  | _ => True
  end.

Lemma chain_join : forall l a b m, chain (l ++ [a]) -> adj a b -> chain (b :: m) -> chain (l ++ a :: b :: m).
Proof.
  induction l as [|x l IH]; intros a b m H1 H2 H3; [cbn; auto|].
  destruct l as [|y l].
  - cbn in H1 |- *. destruct H1. auto.
  - cbn [app] in *. destruct H1 as [X Y]. split; [exact X|]. apply IH; auto.
Qed.
Lemma chain_tail : forall l m, chain (l ++ m) -> chain m.
Proof. induction l as [|x l IH]; intros m H; [exact H|]. apply IH. cbn in H. destruct (l ++ m); [exact I|]. apply H. Qed.

Definition head_of (i : nat) (ks : list rose) : dft := match ks with [] => DClose i | k :: _ => DOpen (rose_id k) end.
Lemma kids_head : forall i ks, exists l, flat_map dfs ks ++ [DClose i] = head_of i ks :: l.
Proof. intros i [|[k js] ks]; cbn; eauto. Qed.

Lemma kids_chain : forall i ks l1, children t i = l1 ++ map rose_id ks -> Forall (fun k => chain (dfs k)) ks ->
  chain (flat_map dfs ks ++ [DClose i]).
Proof.
  intros i. induction ks as [|k ks IH]; intros l1 E F; [exact I|].
  inversion F as [|? ? F1 F2]; subst. cbn [flat_map]. rewrite <- app_assoc.
  destruct (kids_head i ks) as [l EL]. specialize (IH (l1 ++ [rose_id k])). rewrite EL in *.
  destruct k as [c js]. cbn [dfs] in F1 |- *.
  change (DOpen c :: flat_map dfs js ++ [DClose c]) with ((DOpen c :: flat_map dfs js) ++ [DClose c]) in *.
  rewrite <- app_assoc. cbn [app] in *. change (DOpen c :: flat_map dfs js ++ DClose c :: head_of i ks :: l) with ((DOpen c :: flat_map dfs js) ++ DClose c :: head_of i ks :: l).
  apply chain_join; [exact F1| |].
  - cbn [map rose_id] in E. pose proof (neighbours t L _ _ _ _ E) as [_ N]. 
    destruct ks as [|[c2 js2] ks]; cbn [map rose_id head_of hd_error] in *.
    + split.
      * cbn. rewrite N. assert (HC : In c (children t i)) by (rewrite E, in_app_iff; cbn; auto). apply (child_parent t L) in HC. rewrite HC. reflexivity.
      * cbn. destruct (ends t L i) as [_ EN]. rewrite EN, E, last_opt_app. reflexivity.
    + split.
      * cbn. rewrite N. reflexivity.
      * cbn. change (l1 ++ c :: c2 :: map rose_id ks) with (l1 ++ [c] ++ c2 :: map rose_id ks) in E. rewrite app_assoc in E.
        destruct (neighbours t L _ _ _ _ E) as [P _]. rewrite P, last_opt_app. reflexivity.
  - apply IH; [rewrite <- app_assoc; exact E|exact F2].
Qed.

Lemma dfs_chain : forall r, rose_at t r -> chain (dfs r).
Proof.
  induction r as [i ks IH] using rose_ind'. intros R. inversion R as [? ? Hi E F]; subst. cbn [dfs].
  pose proof (kids_chain i ks [] E) as K. destruct (kids_head i ks) as [l EL]. rewrite EL in *.
  split.
  - destruct (ends t L i) as [EF _]. destruct ks as [|[c js] ks]; cbn in E |- *; rewrite E in EF; cbn in EF.
    + split; cbn; rewrite ?EF; [reflexivity|]. destruct (ends t L i) as [_ EN]. rewrite EN, E. reflexivity.
    + split; cbn; [rewrite EF; reflexivity|]. destruct (neighbours t L i [] c _ E) as [P _]. rewrite P. cbn.
      assert (HC : In c (children t i)) by (rewrite E; cbn; auto). apply (child_parent t L) in HC. rewrite HC. reflexivity.
  - apply K. rewrite Forall_forall in *. intros k Hk. auto.
Qed.
End Chain.

Lemma dfs_in : forall r e, In e (dfs r) -> In (dft_id e) (ids r).
Proof.
  induction r as [i ks IH] using rose_ind'. intros e H. cbn [dfs ids] in *. destruct H as [<-|H]; [cbn; auto|].
  apply in_app_iff in H as [H|[<-|[]]]; [|cbn; auto]. right. apply in_flat_map in H as (k & Hk & H). apply in_flat_map. exists k. split; [exact Hk|].
  rewrite Forall_forall in IH. auto.
Qed.
Lemma nodup_app : forall A (l m : list A), NoDup l -> NoDup m -> (forall x, In x l -> ~ In x m) -> NoDup (l ++ m).
Proof.
  induction l as [|x l IH]; intros m HL HM D; [exact HM|]. cbn. inversion HL; subst. constructor.
  - rewrite in_app_iff. intros [|]; [contradiction|]. apply (D x); cbn; auto.
  - apply IH; auto. intros y Hy. apply D. cbn. auto.
Qed.
Lemma nodup_app_inv : forall A (l m : list A), NoDup (l ++ m) -> NoDup l /\ NoDup m /\ (forall x, In x l -> ~ In x m).
Proof.
  induction l as [|x l IH]; intros m H; cbn in H; [repeat split; [constructor|exact H|intros x []]|].
  inversion H; subst. destruct (IH m H3) as (A1 & A2 & A3). rewrite in_app_iff in H2. repeat split; [constructor; tauto|exact A2|].
  intros y [<-|Hy]; [tauto|]. auto.
Qed.
Lemma dfs_nodup : forall r, NoDup (ids r) -> NoDup (dfs r).
Proof.
  induction r as [i ks IH] using rose_ind'. cbn [ids dfs]. intros H. inversion H as [|? ? NI ND]; subst.
  assert (NK : forall e, In e (flat_map dfs ks) -> In (dft_id e) (flat_map ids ks)).
  { intros e He. apply in_flat_map in He as (k & Hk & He). apply in_flat_map. exists k. split; [exact Hk|]. apply dfs_in. exact He. }
  assert (G : NoDup (flat_map dfs ks)).
  { clear NI H NK. induction ks as [|k ks IHk]; [constructor|]. cbn in *. apply nodup_app_inv in ND as (N1 & N2 & N3).
    inversion IH; subst. apply nodup_app; auto. intros e Q1 Q3. apply dfs_in in Q1.
    apply (N3 _ Q1). apply in_flat_map in Q3 as (k2 & Hk2 & H4). apply in_flat_map. exists k2. split; [exact Hk2|]. apply dfs_in. exact H4. }
  constructor.
  - rewrite in_app_iff. intros [HI|[HI|[]]]; [|discriminate]. apply NI. apply (NK _ HI).
  - apply nodup_app; [exact G|repeat constructor; intros []|]. intros e He [<-|[]]. apply NI. apply (NK _ He).
Qed.
Lemma dfs_length : forall r, length (dfs r) = length (ids r) + length (ids r).
Proof.
  induction r as [i ks IH] using rose_ind'. cbn [dfs ids length]. rewrite app_length. cbn [length].
  assert (E : length (flat_map dfs ks) = length (flat_map ids ks) + length (flat_map ids ks)).
  { induction IH; [reflexivity|]. cbn. rewrite !app_length. lia. }
  lia.
Qed.

(** ** The cursors stand for a queue *)
Section Queue.
Context (t : tree).

Definition shows (c : cursors) (q : list dft) : Prop :=
  chain t q /\ NoDup q /\
  match c with
  | None => q = []
  | Some (f, b) => hd_error q = Some f /\ last_opt q = Some b
  end.

Lemma chain_front : forall a q, chain t (a :: q) -> chain t q.
Proof. intros a [|b q] H; [exact I|apply H]. Qed.
Lemma chain_back : forall l a, chain t (l ++ [a]) -> chain t l.
Proof.
  induction l as [|x l IH]; intros a H; [exact I|]. destruct l as [|y l]; [exact I|]. cbn [app] in *. destruct H as [H1 H2].
  split; [exact H1|]. apply (IH a). exact H2.
Qed.
Lemma chain_pair : forall l a b m, chain t (l ++ a :: b :: m) -> adj t a b.
Proof. intros l a b m H. apply chain_tail in H. apply H. Qed.

Lemma forward_shows : forall c q, shows c q ->
  exists c', next_forward t c = Some (fst (pop_front q), c') /\ shows c' (snd (pop_front q)).
Proof.
  intros [[f b]|] q (CH & ND & E).
  - destruct E as [HF HB]. destruct (hd_error_some _ _ _ HF) as [q' ->]. cbn [pop_front fst snd next_forward].
    destruct (dft_eqb f b) eqn:EQ.
    + apply dft_eqb_eq in EQ. subst b. exists None. split; [reflexivity|].
      destruct (last_opt_some _ _ _ HB) as [k EK]. destruct k as [|x k].
      * injection EK as ->. split; [exact I|]. split; [constructor|reflexivity].
      * exfalso. cbn in EK. injection EK as <- ->. inversion ND; subst. apply H1. apply in_app_iff. cbn. auto.
    + destruct q' as [|n q'].
      { cbn in HB. injection HB as ->. rewrite (proj2 (dft_eqb_eq b b) eq_refl) in EQ. discriminate. }
      destruct CH as [[NX _] CH]. rewrite NX. eexists. split; [reflexivity|]. inversion ND; subst.
      split; [exact CH|]. split; [assumption|]. split; [reflexivity|].
      change (f :: n :: q') with ([f] ++ n :: q') in HB. rewrite last_opt_app2 in HB. destruct (last_opt (n :: q')) eqn:EO; [exact HB|]. apply last_opt_none in EO. discriminate.
  - cbn. subst q. exists None. split; [reflexivity|]. split; [exact I|]. split; [constructor|reflexivity].
Qed.

Lemma backward_shows : forall c q, shows c q ->
  exists c', next_backward t c = Some (fst (pop_back q), c') /\ shows c' (snd (pop_back q)).
Proof.
  intros [[f b]|] q (CH & ND & E).
  - destruct E as [HF HB]. destruct (last_opt_some _ _ _ HB) as [k ->]. unfold pop_back. rewrite rev_app_distr. cbn [rev app pop_front fst snd next_backward].
    rewrite rev_involutive. destruct (dft_eqb f b) eqn:EQ.
    + apply dft_eqb_eq in EQ. subst b. exists None. split; [reflexivity|].
      destruct k as [|x k].
      * split; [exact I|]. split; [constructor|reflexivity].
      * exfalso. cbn in HF. injection HF as ->. inversion ND; subst. apply H1. apply in_app_iff. cbn. auto.
    + destruct (last_opt k) as [n|] eqn:EN.
      2: { apply last_opt_none in EN. subst k. cbn in HF. injection HF as ->. rewrite (proj2 (dft_eqb_eq f f) eq_refl) in EQ. discriminate. }
      destruct (last_opt_some _ _ _ EN) as [k' ->]. rewrite <- app_assoc in CH. cbn [app] in CH.
      destruct (chain_pair _ _ _ _ CH) as [_ PV]. rewrite PV. eexists. split; [reflexivity|].
      split; [|split].
      * apply (chain_back _ b). rewrite <- app_assoc. exact CH.
      * apply nodup_app_inv in ND. apply ND.
      * split; [|exact EN]. rewrite hd_error_app in HF. destruct (hd_error (k' ++ [n])) eqn:EH; [exact HF|].
        apply hd_error_none in EH. destruct k'; discriminate.
  - cbn. subst q. exists None. split; [reflexivity|]. split; [exact I|]. split; [constructor|reflexivity].
Qed.

(** Looking for one kind of event. *)
Lemma seek_shows : forall (step : cursors -> option (option dft * cursors)) (pop : list dft -> option dft * list dft) (view : list dft -> list dft) o,
  (forall c q, shows c q -> exists c', step c = Some (fst (pop q), c') /\ shows c' (snd (pop q))) ->
  (forall q, view (view q) = q) -> (forall q, length (view q) = length q) ->
  (forall q, pop q = (fst (pop_front (view q)), view (snd (pop_front (view q))))) ->
  forall fuel c q, shows c q -> length q < fuel ->
  exists c', seek_kind fuel step o c = Some (option_map dft_id (fst (seek_front (fun e => Bool.eqb (is_open e) o) (view q))), c') /\
    shows c' (view (snd (seek_front (fun e => Bool.eqb (is_open e) o) (view q)))).
Proof.
  intros step pop view o ST VV VL PV. induction fuel as [|fuel IH]; intros c q SH LT; [lia|]. cbn [seek_kind].
  destruct (ST c q SH) as (c' & E & SH'). rewrite E. rewrite PV in *. pose proof (VL q) as EL.
  destruct (view q) as [|e vq] eqn:EV; cbn [pop_front fst snd seek_front] in *.
  - exists c'. split; [reflexivity|exact SH'].
  - destruct (Bool.eqb (is_open e) o).
    + exists c'. split; [reflexivity|exact SH'].
    + destruct (IH c' (view vq) SH') as (c2 & E2 & S2); [rewrite VL; cbn in EL; lia|].
      rewrite VV in E2, S2. exists c2. split; assumption.
Qed.

Lemma pop_front_view : forall q : list dft, pop_front q = (fst (pop_front q), snd (pop_front q)).
Proof. intros [|x q]; reflexivity. Qed.
Lemma pop_back_view : forall q : list dft, pop_back q = (fst (pop_front (rev q)), rev (snd (pop_front (rev q)))).
Proof. intros q. unfold pop_back. destruct (pop_front (rev q)); reflexivity. Qed.

Lemma seek_ext : forall (f g : dft -> bool) q, (forall e, f e = g e) -> seek_front f q = seek_front g q.
Proof. intros f g q H. induction q as [|e q IH]; cbn; [reflexivity|]. rewrite H, IH. reflexivity. Qed.
Lemma seek_sat : forall (f : dft -> bool) q e, fst (seek_front f q) = Some e -> f e = true.
Proof. intros f. induction q as [|x q IH]; intros e H; cbn in H; [discriminate|]. destruct (f x) eqn:E; [injection H as <-; exact E|auto]. Qed.
Lemma open_id : forall q, option_map DOpen (option_map dft_id (fst (seek_front is_open q))) = fst (seek_front is_open q).
Proof.
  intros q. pose proof (seek_sat is_open q) as H. destruct (fst (seek_front is_open q)) as [[i|i]|]; try reflexivity. specialize (H _ eq_refl). discriminate.
Qed.
Lemma close_id : forall q, option_map DClose (option_map dft_id (fst (seek_front is_close q))) = fst (seek_front is_close q).
Proof.
  intros q. pose proof (seek_sat is_close q) as H. destruct (fst (seek_front is_close q)) as [[i|i]|]; try reflexivity. specialize (H _ eq_refl). discriminate.
Qed.

Lemma call_shows : forall k c q, shows c q -> length q < dft_fuel t ->
  exists c', run_tcall t k c = Some (fst (deque_call k q), c') /\ shows c' (snd (deque_call k q)).
Proof.
  intros k c q SH LT.
  assert (FO : forall e, Bool.eqb (is_open e) true = is_open e) by (intros [|]; reflexivity).
  assert (FC : forall e, Bool.eqb (is_open e) false = is_close e) by (intros [|]; reflexivity).
  assert (FW : forall o, exists c', seek_kind (dft_fuel t) (next_forward t) o c = Some (option_map dft_id (fst (seek_front (fun e => Bool.eqb (is_open e) o) q)), c') /\ shows c' (snd (seek_front (fun e => Bool.eqb (is_open e) o) q))).
  { intros o. apply (seek_shows (next_forward t) pop_front (fun q => q)); auto; [apply forward_shows|apply pop_front_view]. }
  assert (BW : forall o, exists c', seek_kind (dft_fuel t) (next_backward t) o c = Some (option_map dft_id (fst (seek_front (fun e => Bool.eqb (is_open e) o) (rev q))), c') /\ shows c' (rev (snd (seek_front (fun e => Bool.eqb (is_open e) o) (rev q))))).
  { intros o. apply (seek_shows (next_backward t) pop_back (@rev dft)); auto; [apply backward_shows|apply rev_involutive|apply rev_length|apply pop_back_view]. }
  destruct k; cbn [run_tcall deque_call].
  - apply forward_shows; exact SH.
  - apply backward_shows; exact SH.
  - destruct (FW true) as (c' & E & S). rewrite (seek_ext _ _ q FO) in E, S. unfold next_open_forward. rewrite E. cbn [option_map fst snd]. rewrite open_id. eauto.
  - destruct (FW false) as (c' & E & S). rewrite (seek_ext _ _ q FC) in E, S. unfold next_close_forward. rewrite E. cbn [option_map fst snd]. rewrite close_id. eauto.
  - destruct (BW true) as (c' & E & S). rewrite (seek_ext _ _ (rev q) FO) in E, S. unfold next_open_backward, seek_back. rewrite E. cbn [option_map fst snd]. rewrite open_id.
    destruct (seek_front is_open (rev q)). eauto.
  - destruct (BW false) as (c' & E & S). rewrite (seek_ext _ _ (rev q) FC) in E, S. unfold next_close_backward, seek_back. rewrite E. cbn [option_map fst snd]. rewrite close_id.
    destruct (seek_front is_close (rev q)). eauto.
Qed.

Lemma seek_front_length : forall (f : dft -> bool) q, length (snd (seek_front f q)) <= length q.
Proof. intros f. induction q as [|x q IH]; cbn; [lia|]. destruct (f x); cbn; lia. Qed.
Lemma deque_length : forall k q, length (snd (deque_call k q)) <= length q.
Proof.
  assert (P : forall q : list dft, length (snd (pop_front q)) <= length q) by (intros [|x q]; cbn; lia).
  intros k q. destruct k; cbn [deque_call]; unfold pop_back, seek_back; auto using seek_front_length.
  - specialize (P (rev q)). destruct (pop_front (rev q)); cbn in *. rewrite rev_length in *. exact P.
  - pose proof (seek_front_length is_open (rev q)) as S. destruct (seek_front is_open (rev q)); cbn in *. rewrite rev_length in *. exact S.
  - pose proof (seek_front_length is_close (rev q)) as S. destruct (seek_front is_close (rev q)); cbn in *. rewrite rev_length in *. exact S.
Qed.

Lemma run_shows : forall l c q, shows c q -> length q < dft_fuel t ->
  exists c', run_traverse t l c = Some (fst (run_deque l q), c') /\ shows c' (snd (run_deque l q)).
Proof.
  induction l as [|k l IH]; intros c q SH LT; [exists c; split; [reflexivity|exact SH]|].
  cbn [run_traverse run_deque]. destruct (call_shows k c q SH LT) as (c1 & E1 & S1). rewrite E1.
  pose proof (deque_length k q) as DL. destruct (deque_call k q) as [r q1] eqn:EK. cbn [fst snd] in *.
  destruct (IH c1 q1 S1) as (c2 & E2 & S2); [lia|]. rewrite E2. destruct (run_deque l q1) as [rs q2]. exists c2. split; [reflexivity|exact S2].
Qed.
End Queue.

(** ** C39 *)

Lemma traverse_shows : forall t r, linked t -> rose_at t r -> NoDup (ids r) -> shows t (traverse (rose_id r)) (dfs r).
Proof.
  intros t r L R ND. split; [apply dfs_chain; assumption|]. split; [apply dfs_nodup; exact ND|].
  destruct r as [i ks]. cbn. split; [reflexivity|].
  change (DOpen i :: flat_map dfs ks ++ [DClose i]) with ((DOpen i :: flat_map dfs ks) ++ [DClose i]). apply (last_opt_app dft (DOpen i :: flat_map dfs ks)).
Qed.

(** For any interleaving of calls on the traversal of the subtree of a node, no call panics
    and the results are those of a double-ended queue of its depth-first events. *)
Theorem C39_deque_partial : forall t r, grown t -> rose_at t r ->
  forall l, exists c, run_traverse t l (traverse (rose_id r)) = Some (fst (run_deque l (dfs r)), c) /\
    peek_forward c = hd_error (snd (run_deque l (dfs r))) /\
    peek_backward c = last_opt (snd (run_deque l (dfs r))).
Proof.
  intros t r G R l. pose proof (wf_links _ (built_wf _ (grown_built _ G))) as L. pose proof (grown_acyclic _ G) as AC.
  pose proof (ids_length t L AC r R) as LE.
  destruct (run_shows t l (traverse (rose_id r)) (dfs r)) as (c & E & _ & _ & S).
  - apply traverse_shows; auto. apply (ids_nodup t L AC r R).
  - rewrite dfs_length. unfold dft_fuel. lia.
  - exists c. split; [exact E|]. destruct c as [[f b]|]; cbn.
    + destruct S as [-> ->]. auto.
    + rewrite S. auto.
Qed.

(** Every node has such a subtree. *)
Theorem C39_subtree : forall t i, grown t -> node_of t i -> exists r, rose_at t r /\ rose_id r = i.
Proof.
  intros t i G Hi. apply rose_exists; [|apply grown_acyclic; exact G|exact Hi]. apply wf_links, built_wf, grown_built. exact G.
Qed.
(** Each node of the subtree is opened once and closed once. *)
Theorem C39_events : forall t r, grown t -> rose_at t r ->
  NoDup (dfs r) /\
  forall j, (In (DOpen j) (dfs r) <-> In (DClose j) (dfs r)) /\ (In (DOpen j) (dfs r) <-> node_of t j /\ above t (rose_id r) j).
Proof.
  intros t r G R. pose proof (wf_links _ (built_wf _ (grown_built _ G))) as L. pose proof (grown_acyclic _ G) as AC.
  split; [apply dfs_nodup; apply (ids_nodup t L AC r R)|].
  assert (A1 : forall s j, In j (ids s) -> In (DOpen j) (dfs s) /\ In (DClose j) (dfs s)).
  { induction s as [i ks IH] using rose_ind'. intros j [<-|Hj]; cbn [dfs].
    - split; [cbn; auto|]. right. apply in_app_iff. cbn. auto.
    - apply in_flat_map in Hj as (k & Hk & Hj). rewrite Forall_forall in IH. destruct (IH k Hk j Hj) as [H1 H2].
      split; right; apply in_app_iff; left; apply in_flat_map; eauto. }
  assert (A2 : forall s, rose_at t s -> forall j, node_of t j -> above t (rose_id s) j -> In j (ids s)).
  { clear R r. intros s R j Hj A. destruct (AC j Hj) as [l U].
    revert s R A. induction U as [j H|j p l H U IH]; intros s R A.
    - inversion A; subst; [destruct s; cbn; auto|congruence].
    - destruct (Nat.eq_dec j (rose_id s)) as [->|NE]; [destruct s; cbn; auto|].
      inversion A as [|? q Hq Aq]; subst; [congruence|]. assert (q = p) by congruence. subst q.
      destruct (parent_used t L _ _ H) as [_ Up]. specialize (IH Up s R Aq).
      assert (CL : forall s, rose_at t s -> In p (ids s) -> In j (ids s)).
      { induction s0 as [i ks IHs] using rose_ind'. intros R0 HI. inversion R0 as [? ? Hi E F]; subst. destruct HI as [<-|HI].
        - apply (child_parent t L) in H. rewrite E in H. apply in_map_iff in H as (k & Ek & Hk). cbn [ids]. right. apply in_flat_map. exists k. split; [exact Hk|]. destruct k; cbn in *; auto.
        - apply in_flat_map in HI as (k & Hk & HI). rewrite Forall_forall in IHs, F. cbn. right. apply in_flat_map. exists k. split; [exact Hk|]. auto. }
      apply CL; assumption. }
  intros j. split; [split; intros H; apply dfs_in in H; apply (A1 r j H)|]. split.
  - intros H. apply dfs_in in H. apply (ids_above t L r R j H).
  - intros [H1 H2]. apply A1. apply A2; assumption.
Qed.

(** For forward and backward calls alone: what came from the front, what is left and what
    came from the back make up the whole sequence, so after as many calls as there are
    events every further call returns [None]. *)
Fixpoint pick (k : tcall) (l : list tcall) (rs : list (option dft)) : list dft :=
  match l, rs with
  | c :: l', r :: rs' =>
      (match c, k, r with Forward, Forward, Some e | Backward, Backward, Some e => [e] | _, _, _ => [] end) ++ pick k l' rs'
  | _, _ => []
  end.
Definition plain (k : tcall) : bool := match k with Forward | Backward => true | _ => false end.
Lemma deque_parts : forall l q, forallb plain l = true ->
  let '(rs, rest) := run_deque l q in
  pick Forward l rs ++ rest ++ rev (pick Backward l rs) = q /\
  length rest = length q - length l.
Proof.
  induction l as [|k l IH]; intros q H; cbn [run_deque].
  - cbn. rewrite app_nil_r. split; [reflexivity|lia].
  - cbn in H. apply andb_prop in H as [H1 H2]. destruct (deque_call k q) as [r q1] eqn:EK. specialize (IH q1 H2).
    destruct (run_deque l q1) as [rs rest]. destruct IH as [I1 I2]. destruct k; try discriminate; cbn [deque_call] in EK; cbn [pick].
    + destruct q as [|e q]; cbn in EK; injection EK as <- <-; cbn [app].
      * rewrite I1. split; [reflexivity|]. rewrite I2. cbn. lia.
      * rewrite I1. split; [reflexivity|]. rewrite I2. cbn. lia.
    + unfold pop_back in EK. destruct (rev q) as [|e k] eqn:EQ; cbn in EK; injection EK as <- <-; cbn [app].
      * assert (q = []) by (apply (f_equal (@rev dft)) in EQ; rewrite rev_involutive in EQ; exact EQ). subst q. cbn [rev] in I1. rewrite I1. split; [reflexivity|]. rewrite I2. cbn. lia.
      * assert (q = rev k ++ [e]) by (apply (f_equal (@rev dft)) in EQ; rewrite rev_involutive in EQ; exact EQ). subst q.
        cbn [rev]. rewrite !app_assoc. rewrite <- (app_assoc _ rest), I1. split; [reflexivity|]. rewrite I2, app_length, rev_length. cbn. lia.
Qed.

Theorem C39_every_event_once_partial : forall t r l, grown t -> rose_at t r -> forallb plain l = true ->
  exists rs c rest, run_traverse t l (traverse (rose_id r)) = Some (rs, c) /\
    pick Forward l rs ++ rest ++ rev (pick Backward l rs) = dfs r /\
    length rest = length (dfs r) - length l /\
    (rest = [] -> next_forward t c = Some (None, c) /\ next_backward t c = Some (None, c)).
Proof.
  intros t r l G R P. destruct (C39_deque_partial t r G R l) as (c & E & PF & PB).
  pose proof (deque_parts l (dfs r) P) as D. destruct (run_deque l (dfs r)) as [rs rest]. cbn [fst snd] in *.
  exists rs, c, rest. destruct D as [D1 D2]. split; [exact E|]. split; [exact D1|]. split; [exact D2|].
  intros ->. destruct c as [[f b]|]; [discriminate|]. split; reflexivity.
Qed.

Example C39_ex : exists r, rose_at Cases.sample r /\ rose_id r = 0 /\ grown Cases.sample /\
  dfs r = [DOpen 0; DOpen 1; DOpen 4; DClose 4; DOpen 3; DClose 3; DClose 1; DOpen 2; DClose 2; DClose 0] /\
  option_map fst (run_traverse Cases.sample [Forward; Backward; Backward; OpenBackward; CloseForward] (traverse 0)) =
    Some [Some (DOpen 0); Some (DClose 0); Some (DClose 2); Some (DOpen 2); Some (DClose 4)].
Proof.
  exists (Rose 0 [Rose 1 [Rose 4 []; Rose 3 []]; Rose 2 []]). split.
  - repeat (constructor; try (vm_compute; reflexivity); try (vm_compute; lia)).
  - split; [reflexivity|]. split; [exact Cases.sample_grown|]. split; vm_compute; reflexivity.
Qed.

(** Without the proviso the full claim fails: in a tree with a cycle the traversal of a node
    may never end. *)
Lemma loop_step : forall c, In c [DOpen 1; DOpen 2; DOpen 3; DClose 3] ->
  exists n, In n [DOpen 1; DOpen 2; DOpen 3; DClose 3] /\ next_forward Cases.looped (Some (c, DClose 1)) = Some (Some c, Some (n, DClose 1)).
Proof.
  intros c H. repeat (destruct H as [<-|H]; [eexists; split; [|vm_compute; reflexivity]; vm_compute; tauto|]). destruct H.
Qed.
Theorem C39_cycle_refuted : exists t i, built t /\ node_of t i /\
  forall n, exists rs c, run_traverse t (repeat Forward n) (traverse i) = Some (rs, c) /\ Forall (fun r => r <> None) rs.
Proof.
  exists Cases.looped, 1. split; [exact Cases.looped_built|]. split; [vm_compute; lia|].
  assert (G : forall n c, In c [DOpen 1; DOpen 2; DOpen 3; DClose 3] -> exists rs c', run_traverse Cases.looped (repeat Forward n) (Some (c, DClose 1)) = Some (rs, c') /\ Forall (fun r => r <> None) rs).
  { induction n as [|n IH]; intros c Hc; [exists [], (Some (c, DClose 1)); split; [reflexivity|constructor]|].
    destruct (loop_step c Hc) as (m & Hm & E). destruct (IH m Hm) as (rs & c' & E2 & F).
    exists (Some c :: rs), c'. cbn [repeat run_traverse run_tcall]. rewrite E, E2. split; [reflexivity|]. constructor; [discriminate|exact F]. }
  intros n. apply (G n (DOpen 1)). cbn. auto.
Qed.
