(** C80: how deep comparing and printing recurse. *)
Require Import Coq.Lists.List Coq.Arith.PeanoNat Coq.Bool.Bool Lia Coq.ZArith.ZArith Coq.NArith.NArith.
Require Import Coq.Init.Byte.
Require Import Verif.Base Verif.BaseFacts Verif.Utf8 Verif.Types Verif.Values Verif.Io Verif.Parser Verif.Tree Verif.TreeFacts Verif.TreeSpec Verif.TreeLinks Verif.TreeOps Verif.TreePaths Verif.PropsTree Verif.PropsTreeEq Verif.TreeDebug Verif.PropsDebug.
Require Import Verif.Spec Verif.SpecFacts Verif.Zlib Verif.TreeIo Verif.TreeRound Verif.FooterFacts Verif.PropsDoc Verif.PropsInARow Verif.Samples.
Import ListNotations.
Local Open Scope nat_scope.

(** The number of levels of a document. *)
Fixpoint levels (d : dnode) : nat := match d with DNode _ _ ks => S (list_max (map levels ks)) end.

(** [debug_node] and [nodes_strict_eq] are the recursive functions of the code; their argument
    [fuel] is the number of calls that may be nested, and [None] says that it was exceeded
    (or that a node does not exist). *)

Lemma max_le : forall A (f : A -> nat) l n, list_max (map f l) <= n <-> Forall (fun x => f x <= n) l.
Proof. intros A f l n. rewrite list_max_le, Forall_map. reflexivity. Qed.

(** Printing ends within [fuel] nested calls exactly if the node stands for a document of at
    most [fuel] levels, in any tree. *)
Theorem C80_printing : forall T (F : formatter T) t fuel i x,
  debug_node F fuel t i = Some x <-> exists d, doc_at t i d /\ levels d <= fuel /\ x = shown F d.
Proof.
  intros T F t. induction fuel as [|fuel IH]; intros i x.
  - cbn. split; [discriminate|]. intros ([n a ks] & _ & L & _). cbn in L. lia.
  - cbn [debug_node].
    assert (G : forall l xs, (fix all (l : list nat) : option (list T) :=
                   match l with
                   | [] => Some []
                   | c :: l' =>
                       match debug_node F fuel t c with
                       | Some x => match all l' with Some xs => Some (x :: xs) | None => None end
                       | None => None
                       end
                   end) l = Some xs <-> exists ks, Forall2 (doc_at t) l ks /\ Forall (fun d => levels d <= fuel) ks /\ xs = map (shown F) ks).
    { induction l as [|c l IHl]; intros xs.
      - split; [intros [= <-]; exists []; auto|]. intros (ks & K & _ & ->). inversion K; subst. reflexivity.
      - split.
        + destruct (debug_node F fuel t c) as [y|] eqn:E; [|discriminate]. apply IH in E. destruct E as (d & D & L & ->).
          match goal with |- context [match ?m with Some _ => _ | None => _ end] => destruct m as [ys|] eqn:EY; [|discriminate] end. intros [= <-].
          destruct (proj1 (IHl ys) eq_refl) as (ks & K1 & K2 & ->). exists (d :: ks). auto.
        + intros (ks & K1 & K2 & ->). inversion K1 as [|? d ? ks' D K1']; subst. inversion K2 as [|? ? L K2']; subst.
          rewrite (proj2 (IH c (shown F d)) (ex_intro _ d (conj D (conj L eq_refl)))).
          rewrite (proj2 (IHl (map (shown F) ks')) (ex_intro _ ks' (conj K1' (conj K2' eq_refl)))). reflexivity. }
    split.
    + destruct (name t i) as [nm|] eqn:EN; [|discriminate]. destruct (attributes t i) as [ats|] eqn:EA; [|discriminate].
      match goal with |- context [match ?m with Some _ => _ | None => _ end] => destruct m as [xs|] eqn:E; [|discriminate] end. intros [= <-].
      apply G in E. destruct E as (ks & K1 & K2 & ->). exists (DNode nm ats ks). split; [constructor; auto|]. split; [|reflexivity].
      cbn [levels]. apply le_n_S, max_le. exact K2.
    + intros (d & D & L & ->). destruct D as [i nm ats ks EN EA K]. rewrite EN, EA. cbn [levels] in L. apply le_S_n in L. apply max_le in L.
      rewrite (proj2 (G (children t i) (map (shown F) ks)) (ex_intro _ ks (conj K (conj L eq_refl)))). reflexivity.
Qed.

(** Comparing two nodes ends, with the right answer, if as many calls may be nested as one of
    the two documents has levels. *)
Theorem C80_comparing : forall t u fuel i j d e, doc_at t i d -> doc_at u j e -> levels d <= fuel \/ levels e <= fuel ->
  exists b, nodes_strict_eq fuel t u i j = Some b /\ (b = true <-> d = e).
Proof.
  intros t u. induction fuel as [|fuel IH]; intros i j d e D E L; [destruct d, e; cbn in L; lia|].
  destruct D as [i n a ds N1 A1 K1], E as [j m b es N2 A2 K2]. cbn [levels] in L.
  assert (L' : Forall (fun x => levels x <= fuel) ds \/ Forall (fun x => levels x <= fuel) es) by (destruct L as [L|L]; apply le_S_n, max_le in L; auto). clear L.
  cbn [nodes_strict_eq]. rewrite N1, N2, A1, A2. cbn [obytes_eqb].
  destruct (bytes_eqb n m) eqn:EN; cbn [negb].
  2: { exists false. split; [reflexivity|]. apply bytes_eqb_neq in EN. split; [discriminate|congruence]. }
  apply bytes_eqb_eq in EN. subst m.
  destruct (Nat.eqb_spec (length a) (length b)) as [EL|EL]; cbn [negb].
  2: { exists false. split; [reflexivity|]. split; [discriminate|congruence]. }
  destruct (forallb _ (combine a b)) eqn:EA; cbn [negb].
  2: { exists false. split; [reflexivity|]. split; [discriminate|]. intros H. injection H as -> _. rewrite (proj2 (attrs_eqb b b eq_refl) eq_refl) in EA. discriminate. }
  apply attrs_eqb in EA; [|exact EL]. subst b. clear EL.
  match goal with |- exists b, ?m = _ /\ _ => assert (G : exists b, m = Some b /\ (b = true <-> ds = es)) end.
  { clear N1 N2 A1 A2. revert ds K1 es K2 L'. generalize (children t i) as ci, (children u j) as cj.
    induction ci as [|c ci IHc]; intros cj ds K1 es K2 L'; inversion K1 as [|? d ? ds' D K1']; subst; inversion K2 as [|c' e cj' es' E K2']; subst.
    - exists true. tauto.
    - exists false. split; [reflexivity|]. split; discriminate.
    - exists false. split; [reflexivity|]. split; discriminate.
    - assert (L2 : (levels d <= fuel \/ levels e <= fuel) /\ (Forall (fun x => levels x <= fuel) ds' \/ Forall (fun x => levels x <= fuel) es')).
      { destruct L' as [L'|L']; inversion L'; subst; auto. }
      destruct L2 as [L2 L3]. destruct (IH _ _ _ _ D E L2) as (b & -> & B). destruct b.
      + destruct (IHc _ _ K1' _ K2' L3) as (b2 & E2 & B2). exists b2. split; [exact E2|]. rewrite B2. assert (d = e) by tauto. subst. split; [congruence|intros HH; injection HH; auto].
      + exists false. split; [reflexivity|]. split; [discriminate|]. intros HH. injection HH as HH1 _. tauto. }
  destruct G as (b & -> & B). exists b. split; [reflexivity|]. rewrite B. split; [congruence|intros H; injection H; auto].
Qed.

(** No fewer will do if the documents are the same. *)
Theorem C80_comparing_equal : forall t u fuel i j d, doc_at t i d -> doc_at u j d -> fuel < levels d -> nodes_strict_eq fuel t u i j = None.
Proof.
  intros t u. induction fuel as [|fuel IH]; intros i j d D E L; [reflexivity|].
  destruct D as [i n a ds N1 A1 K1]. inversion E as [? m b es N2 A2 K2]; subst. cbn [levels] in L. apply Nat.succ_lt_mono in L.
  cbn [nodes_strict_eq]. rewrite N1, N2, A1, A2. cbn [obytes_eqb]. rewrite (proj2 (bytes_eqb_eq n n) eq_refl), Nat.eqb_refl, (proj2 (attrs_eqb a a eq_refl) eq_refl). cbn [negb].
  clear N1 N2 A1 A2 E. revert ds K1 K2 L. generalize (children t i) as ci, (children u j) as cj.
  induction ci as [|c ci IHc]; intros cj ds K1 K2 L; inversion K1 as [|? d ? ds' D K1']; subst; inversion K2 as [|c' e cj' es' E K2']; subst.
  - cbn in L. lia.
  - destruct (Nat.le_gt_cases (levels d) fuel) as [X|X]; [|rewrite (IH _ _ _ D E X); reflexivity].
    destruct (C80_comparing t u fuel _ _ _ _ D E (or_introl X)) as (b & -> & B). rewrite (proj2 B eq_refl). apply (IHc _ _ K1' K2').
    cbn [map list_max fold_right] in L. change (fold_right Nat.max 0 (map levels ds')) with (list_max (map levels ds')) in L. lia.
Qed.

Section WithEnv.
Context {env : Env}.

(** A file has room for few levels: each costs at least the header of a node. *)
Lemma node_levels : forall ver n, (header_size ver * N.of_nat (levels (doc_of n)) <= node_size ver n)%N.
Proof.
  intros ver. fix IH 1. intros [nm ats ks]. cbn [doc_of levels node_size].
  assert (G : (header_size ver * N.of_nat (list_max (map levels (map doc_of ks))) <= (fix go l := match l with [] => 0 | k :: l' => node_size ver k + go l' end) ks)%N).
  { induction ks as [|k ks IHk]; [cbn; lia|]. specialize (IH k). cbn [map list_max fold_right]. change (fold_right Nat.max 0) with list_max.
    rewrite Nat2N.inj_max. destruct (N.max_spec (N.of_nat (levels (doc_of k))) (N.of_nat (list_max (map levels (map doc_of ks))))) as [[_ ->]|[_ ->]]; lia. }
  rewrite Nat2N.inj_succ. lia.
Qed.
Theorem C80_file_bounds_levels : forall ver ns g, (header_size ver * N.of_nat (levels (DNode [] [] (map doc_of ns))) <= lenN (enc_doc ver ns g))%N.
Proof.
  intros ver ns g. unfold enc_doc. rewrite !lenN_app, enc_nodes_len'. cbn [levels].
  assert (G : (header_size ver * N.of_nat (list_max (map levels (map doc_of ns))) <= nodes_size ver ns)%N).
  { induction ns as [|k ks IHk]; [cbn; lia|]. pose proof (node_levels ver k). cbn [map list_max fold_right nodes_size]. change (fold_right Nat.max 0) with list_max.
    fold (nodes_size ver ks). rewrite Nat2N.inj_max. destruct (N.max_spec (N.of_nat (levels (doc_of k))) (N.of_nat (list_max (map levels (map doc_of ks))))) as [[_ ->]|[_ ->]]; lia. }
  assert (M : lenN (end_marker ver) = header_size ver) by (unfold end_marker, zeros, lenN, header_size; rewrite repeat_length; lia).
  rewrite Nat2N.inj_succ. lia.
Qed.
End WithEnv.

(** ** The number of levels is not limited: a file with [n] nodes, each inside the other *)
Module DepthCases.
Fixpoint chain (n : nat) : node := Node [x41] [] (match n with O => [] | S m => [chain m] end).
Definition foot0 : foot := mkFoot (zeros 16) 0.
Definition deep (n : nat) : list byte := enc_doc (env := release) 7500 [chain n] foot0.

Lemma chain_ok : forall n, node_ok (env := release) (chain n).
Proof. induction n as [|n IH]; cbn [chain node_ok]; (split; [reflexivity|]; split; [reflexivity|]; split; [constructor|]); auto. Qed.
Lemma chain_counts : forall n, counts_ok (env := release) 7500 (chain n).
Proof. induction n as [|n IH]; cbn [chain counts_ok]; (split; [vm_compute; reflexivity|]; split; [vm_compute; reflexivity|]); auto. Qed.
Lemma chain_size : forall n, node_size (env := release) 7500 (chain n) = (51 + 51 * N.of_nat n)%N.
Proof.
  induction n as [|n IH]; [vm_compute; reflexivity|]. cbn [chain node_size]. rewrite IH, Nat2N.inj_succ.
  change (header_size 7500) with 25%N. change (needs_marker (@nil attr) [chain n]) with true. cbn iota. change (lenN [x41]) with 1%N. change (lenN (enc_attrs (env:=release) [])) with 0%N. lia.
Qed.
Lemma chain_levels : forall n, levels (doc_of (chain n)) = S n.
Proof. induction n as [|n IH]; [reflexivity|]. cbn [chain doc_of map levels]. rewrite IH. cbn. lia. Qed.
Lemma deep_size : forall n, lenN (deep n) = (51 * N.of_nat n + 263)%N.
Proof.
  intros n. unfold deep, enc_doc. rewrite !lenN_app, enc_nodes_len'. cbn [nodes_size fold_right]. rewrite chain_size.
  change (lenN spec_magic) with 23%N. change (lenN (le_enc 4 7500)) with 4%N. change (lenN (end_marker 7500)) with 25%N. assert (X : lenN (enc_footer 7500 foot0) = 160%N) by (vm_compute; reflexivity). rewrite X. lia.
Qed.
Lemma deep_loads : forall n, (51 * N.of_nat n + 263 < pow2_63)%N ->
  exists t, any_tree (env := release) (mkStream (deep n) 0 [] []) true = Ok (7500%N, t, inr (footer_of 7500 foot0)) /\
    doc_at t (tr_root t) (DNode [] [] [doc_of (chain n)]).
Proof.
  intros n H. destruct (C79_finished_is_one_document (env := release) 7500 [chain n] foot0 true) as (t & [L _] & D).
  - apply stored_roundtrip.
  - split; [lia|]. split; [repeat constructor; apply chain_ok|]. split; [repeat constructor; apply chain_counts|].
    cbn [nodes_size fold_right]. rewrite chain_size. unfold u_ok. change (width 7500) with 8. unfold pow2_63 in *. change (256 ^ N.of_nat 8)%N with (2 * 2 ^ 63)%N. lia.
  - split; [reflexivity|cbn; lia].
  - fold (deep n). rewrite deep_size. unfold pow2_64, pow2_63 in *. lia.
  - left. reflexivity.
  - exists t. auto.
Qed.

(** Whatever number [n] of nested calls the stack has room for, a file of [51 * n + 263] bytes
    exists that is loaded, but cannot be printed, nor be compared with itself, within [n] nested
    calls. *)
Theorem C80_bounded_nesting_refuted : forall n, (51 * N.of_nat n + 263 < pow2_63)%N ->
  exists data t f, lenN data = (51 * N.of_nat n + 263)%N /\ any_tree (env := release) (mkStream data 0 [] []) true = Ok (7500%N, t, inr f) /\
    (forall T (F : formatter T), debug_node F n t (tr_root t) = None) /\ nodes_strict_eq n t t (tr_root t) (tr_root t) = None.
Proof.
  intros n H. destruct (deep_loads n H) as (t & L & D). exists (deep n), t, (footer_of 7500 foot0). split; [apply deep_size|]. split; [exact L|].
  assert (HL : levels (DNode [] [] [doc_of (chain n)]) = S (S n)) by (cbn [levels map]; rewrite chain_levels; cbn; lia). split.
  - intros T F. destruct (debug_node F n t (tr_root t)) as [x|] eqn:E; [|reflexivity]. apply C80_printing in E. destruct E as (d & D' & L' & _).
    rewrite (C38_document_unique _ _ _ _ D D') in HL. lia.
  - apply (C80_comparing_equal _ _ _ _ _ _ D D). rewrite HL. lia.
Qed.

(** The sample document has three levels with the root; two nested calls are too few. *)
Definition sample_tree : tree := match any_tree (env := release) (mkStream (sample_doc 7400) 0 [] []) true with Ok (_, t, _) => t | _ => tree_default end.
Definition flat : formatter nat := mkFormatter _ (fun _ l => S (list_sum (map snd l))) list_sum (fun _ => 0) (fun _ => 1).
Example levels_ex : exists k, debug_node flat k sample_tree (tr_root sample_tree) <> None /\ debug_node flat (pred k) sample_tree (tr_root sample_tree) = None /\
  nodes_strict_eq k sample_tree sample_tree (tr_root sample_tree) (tr_root sample_tree) = Some true /\
  nodes_strict_eq (pred k) sample_tree sample_tree (tr_root sample_tree) (tr_root sample_tree) = None /\ k = 3.
Proof. exists 3. vm_compute. repeat split; discriminate. Qed.
End DepthCases.

Print Assumptions C80_printing.
Print Assumptions C80_comparing.
Print Assumptions C80_comparing_equal.
Print Assumptions C80_file_bounds_levels.
Print Assumptions DepthCases.C80_bounded_nesting_refuted.
