(** C87: picking one node out of a file, skipping the others, gives what the loaded tree has there. *)
Require Import Coq.Lists.List Coq.Arith.PeanoNat Coq.NArith.NArith Coq.ZArith.ZArith Coq.Bool.Bool Lia.
Require Import Coq.Init.Byte.
Require Import ZifyBool ZifyNat ZifyN.
Require Import Verif.Base Verif.BaseFacts Verif.Utf8 Verif.Types Verif.Io Verif.IoFacts Verif.Parser Verif.ParserPos Verif.Loaders Verif.Zlib Verif.Spec Verif.DocCursor Verif.FooterFacts Verif.DocTrace Verif.DocRef
  Verif.PropsDoc Verif.Tree Verif.TreeFacts Verif.TreeSpec Verif.TreeLinks Verif.TreeOps Verif.TreePaths Verif.PropsTree Verif.PropsTreeEq Verif.TreeIo Verif.TreeRound Verif.PropsTreeIo Verif.PropsDamage Verif.Samples.
Import ListNotations.
Local Open Scope nat_scope.
Local Open Scope list_scope.

(** ** Specification *)

Section WithEnv.
Context {env : Env}.

(** All attributes of the node just started, loaded one by one.  [None]: a load failed, or there
    are as many attributes as [fuel]. *)
Fixpoint load_all (buffered : bool) (fuel : nat) (s : pstate) : option (list aval) :=
  match fuel with
  | O => None
  | S k =>
      match run_op (if buffered then OLoadBuf direct_loader else OLoad direct_loader) s with
      | (Ok (BAttr (Some v)), s1) => option_map (cons v) (load_all buffered k s1)
      | (Ok (BAttr None), _) => Some []
      | _ => None
      end
  end.

(** A client that looks for the node [nm/path...] below the node that is open: it calls
    [next_event]; it skips each node with another name; it enters the first one with the right
    name, and loads its attributes if it is the last of the path.  [Some None]: there is no such
    node.  [None]: a call failed, or more than [fuel] calls were needed. *)
Fixpoint pick (buffered : bool) (fuel : nat) (nm : list byte) (path : list (list byte)) (s : pstate) : option (option (list aval)) :=
  match fuel with
  | O => None
  | S k =>
      match run_op (@ONext aval) s with
      | (Ok (BEvent (EvStart x)), s1) =>
          if bytes_eqb x nm
          then match path with
               | [] => option_map Some (load_all buffered k s1)
               | nm' :: path' => pick buffered k nm' path' s1
               end
          else match run_op (@OSkip aval) s1 with
               | (Ok BSkipped, s2) => pick buffered k nm path s2
               | _ => None
               end
      | (Ok (BEvent _), _) => Some None
      | _ => None
      end
  end.
End WithEnv.

(** What a document has at the end of a path, taking the first node of each name. *)
Fixpoint lookup (nm : list byte) (path : list (list byte)) (ns : list node) : option (list aval) :=
  match find (fun n => bytes_eqb (nd_name n) nm) ns with
  | None => None
  | Some n => match path with [] => Some (map at_val (nd_attrs n)) | nm' :: path' => lookup nm' path' (nd_kids n) end
  end.

(** The same steps on a tree, with [first_child_by_name]. *)
Fixpoint descend (t : tree) (i : nat) (nm : list byte) (path : list (list byte)) : option nat :=
  match first_child_by_name t i nm with
  | None => None
  | Some c => match path with [] => Some c | nm' :: path' => descend t c nm' path' end
  end.

(** ** Proofs *)
Section Pick.
Context {env : Env} (ver lim : N) (f0 : foot) (ext : list byte).
Context (HV : u_ok (width ver) lim) (HF : foot_ok f0) (H4 : u_ok 4 ver) (HZ : zlib_roundtrip env) (W : list warning).
Notation at_ref := (at_ref ver lim f0 ext W).

Lemma call_step : forall c r s o p r', at_ref r s -> ref_call W c r = Some (o, p, r') ->
  exists s', run_op (op_of c) s = (Ok o, s') /\ at_ref r' s'.
Proof. intros c r s o p r' H E. destruct (ref_step ver lim f0 ext HV HF H4 HZ W _ _ _ _ _ _ H E) as (s' & A & B & _). eauto. Qed.

Lemma load_all_ok : forall b l tr A w s fuel, at_ref (mkR tr A (Some l) w) s -> length l < fuel -> load_all b fuel s = Some l.
Proof.
  intros b. induction l as [|v l IH]; intros tr A w s fuel H Hf; (destruct fuel as [|k]; [cbn in Hf; lia|]); cbn [load_all].
  - destruct (call_step (CLoad b) _ _ _ _ _ H eq_refl) as (s' & E & _). cbn [op_of] in E. rewrite E. reflexivity.
  - destruct (call_step (CLoad b) _ _ _ _ _ H eq_refl) as (s' & E & H'). cbn [op_of] in E. rewrite E. rewrite (IH _ _ _ _ _ H'); [reflexivity|cbn in Hf; lia].
Qed.

(** Calls needed. *)
Fixpoint cost (n : node) : nat := match n with Node _ ats kids => 2 + length ats + list_sum (map cost kids) end.
Definition costs (l : list node) : nat := list_sum (map cost l).

Lemma costs_cons : forall name ats kids l, costs (Node name ats kids :: l) = 2 + length ats + costs kids + costs l.
Proof. reflexivity. Qed.

Definition closing (tr : list (event * synpos)) : Prop :=
  match tr with (EvEnd, _) :: _ | (EvEndFbx _, _) :: _ => True | _ => False end.

Lemma pick_ok : forall b path nm l parent pth i off tr A cur w s fuel, closing tr -> costs l < fuel ->
  at_ref (mkR (nodes_trace ver parent pth i off l ++ tr) (nodes_atts l ++ A) cur w) s ->
  pick b fuel nm path s = Some (lookup nm path l).
Proof.
  intros b. induction path as [|nm' path IHp]; intros nm; (induction l as [|[name ats kids] l IHl]; intros parent pth i off tr A cur w s fuel HC Hf H; (destruct fuel as [|k]; [lia|])).
  1,3: cbn [nodes_trace nodes_atts flat_map app] in H; cbn [pick lookup find]; destruct tr as [|[[x| |g] q] tr]; try destruct HC;
    (destruct (call_step CNext _ _ _ _ _ H eq_refl) as (s' & E & _)); cbn [op_of] in E; rewrite E; reflexivity.
  all: cbn [nodes_trace nodes_atts flat_map] in H; rewrite node_trace_eq in H; cbn [node_atts app] in H; rewrite <- !app_assoc in H; cbn [app] in H;
    destruct (call_step CNext _ _ _ _ _ H eq_refl) as (s1 & E & H1); cbn [op_of] in E; cbn [pick]; rewrite E; cbn [lookup find nd_name];
    destruct (bytes_eqb name nm) eqn:EN.
  - cbn [nd_attrs]. erewrite load_all_ok; [reflexivity|exact H1|]. rewrite map_length. rewrite costs_cons in Hf. lia.
  - destruct (call_step CSkip _ _ (@BSkipped aval) (Some (mkPos (off + node_size ver (Node name ats kids)) parent pth None)) (mkR (nodes_trace ver parent pth (i + 1) (off + node_size ver (Node name ats kids)) l ++ tr) (nodes_atts l ++ A) None (event_warnings W (EvStart name) ++ w)) H1) as (s2 & E2 & H2).
    { cbn [ref_call rf_trace rf_atts tl rf_warn]. change (flat_map node_atts kids) with (nodes_atts kids). rewrite drop_nodes. reflexivity. }
    cbn [op_of] in E2. rewrite E2. erewrite (IHl _ _ _ _ _ _ _ _ _ _ HC); [reflexivity| |exact H2]. rewrite costs_cons in Hf. lia.
  - cbn [nd_kids]. refine (IHp _ kids _ _ _ _ _ _ _ _ _ _ _ _ H1); [exact I|]. rewrite costs_cons in Hf. lia.
  - destruct (call_step CSkip _ _ (@BSkipped aval) (Some (mkPos (off + node_size ver (Node name ats kids)) parent pth None)) (mkR (nodes_trace ver parent pth (i + 1) (off + node_size ver (Node name ats kids)) l ++ tr) (nodes_atts l ++ A) None (event_warnings W (EvStart name) ++ w)) H1) as (s2 & E2 & H2).
    { cbn [ref_call rf_trace rf_atts tl rf_warn]. change (flat_map node_atts kids) with (nodes_atts kids). rewrite drop_nodes. reflexivity. }
    cbn [op_of] in E2. rewrite E2. erewrite (IHl _ _ _ _ _ _ _ _ _ _ HC); [reflexivity| |exact H2]. rewrite costs_cons in Hf. lia.
Qed.
End Pick.

Lemma find_docs : forall t nm is ns, Forall2 (doc_at t) is (map doc_of ns) ->
  match find (fun n => bytes_eqb (nd_name n) nm) ns with
  | None => find (named t nm) is = None
  | Some n => exists c, find (named t nm) is = Some c /\ doc_at t c (doc_of n)
  end.
Proof.
  intros t nm is ns. revert is. induction ns as [|[name ats kids] ns IH]; intros is F; cbn [map] in F; inversion F as [|c d is' ds D F']; subst; [reflexivity|].
  cbn [find nd_name]. assert (N : named t nm c = bytes_eqb name nm) by (unfold named; cbn [doc_of] in D; inversion D as [i0 n0 a0 k0 HN HA HK]; rewrite HN; reflexivity).
  rewrite N. destruct (bytes_eqb name nm); [eauto|]. apply IH. exact F'.
Qed.

Lemma descend_docs : forall t path nm i x ats ns, built t -> doc_at t i (DNode x ats (map doc_of ns)) ->
  match lookup nm path ns with
  | None => descend t i nm path = None
  | Some vs => exists c, descend t i nm path = Some c /\ attributes t c = Some vs
  end.
Proof.
  intros t. induction path as [|nm' path IH]; intros nm i x ats ns B D; cbn [lookup descend]; rewrite (proj2 (C37_lookup t i nm B));
    (assert (F : Forall2 (doc_at t) (children t i) (map doc_of ns)) by (inversion D; assumption)); apply (find_docs _ nm) in F;
    (destruct (find _ ns) as [[name ats' kids]|]; [destruct F as (c & -> & Dc)|rewrite F; reflexivity]).
  - exists c. split; [reflexivity|]. cbn [doc_of] in Dc. inversion Dc. assumption.
  - apply (IH nm' c _ _ kids B Dc).
Qed.

Section Theorems.
Context {env : Env}.

(** The client finds what the document has.  Missing: readers that cannot seek (refuted below). *)
Theorem C87_picked_partial : forall ver ns f ext p b, zlib_roundtrip env -> opened_doc ver ns f ext true p ->
  exists calls, forall fuel nm path, calls <= fuel -> pick b fuel nm path p = Some (lookup nm path ns).
Proof.
  intros ver ns f ext p b HZ H. destruct (opened_doc_at _ _ _ _ _ _ H) as (HV & HF & H4 & Hc & Hs & Hl).
  exists (S (costs ns)). intros fuel nm path L.
  refine (pick_ok ver _ f ext HV HF H4 HZ (footer_warnings ver ns f) b path nm ns 0%N [] 0%N 27%N
    [(EvEndFbx (inr (footer_of ver f)), mkPos (27 + nodes_size ver ns + header_size ver + lenN (enc_footer ver f)) 0 [] None)] [] None [] p fuel _ L _).
  { exact I. }
  rewrite app_nil_r. split; [rewrite Hl; reflexivity|]. left. exists (c_init ns). cbn [rf_trace rf_atts rf_cur]. rewrite ctrace_init. auto 7.
Qed.

(** The client finds what loading the whole file as a tree and looking there gives.  Missing: readers
    that cannot seek, and files that no writer makes but that are loaded (both refuted below). *)
Theorem C87_as_in_tree_partial : forall ver ns f ext p b, zlib_roundtrip env -> opened_doc ver ns f ext true p ->
  exists t s' calls, load_tree p = (Ok (t, inr (footer_of ver f)), s') /\
  forall fuel nm path, calls <= fuel ->
    match descend t (tr_root t) nm path with
    | None => pick b fuel nm path p = Some None
    | Some i => exists vs, attributes t i = Some vs /\ pick b fuel nm path p = Some (Some vs)
    end.
Proof.
  intros ver ns f ext p b HZ H. destruct (C33_document _ _ _ _ _ _ HZ H (or_introl eq_refl)) as (t & s' & E & _ & G & D).
  destruct (C87_picked_partial _ _ _ _ _ b HZ H) as (calls & P). exists t, s', calls. split; [exact E|]. intros fuel nm path L. rewrite (P _ nm path L).
  pose proof (descend_docs t path nm _ _ _ _ (grown_built _ G) D) as K. destruct (lookup nm path ns) as [vs|].
  - destruct K as (c & -> & A). eauto.
  - rewrite K. reflexivity.
Qed.
End Theorems.

(** ** Concrete cases, and where the claim ends *)
Module PickCases.
Definition sample_at (seekable : bool) : pstate :=
  match open_bytes (sample_doc 7400 ++ [x41; x42]) [AChunk 3] seekable with Ok p => set_handler None p | _ => mkP 0 Running [] None 0 (mkReader (mkStream [] 0 [] []) 0 true) None [] None end.
Lemma sample_open : forall seekable,
  opened_doc (env := release) 7400 sample_nodes (sample_foot 7400) [x41; x42] seekable (sample_at seekable).
Proof.
  intros seekable. constructor.
  - apply Cases.sample_ok. auto.
  - apply Cases.sample_foot_ok. auto.
  - vm_compute. reflexivity.
  - exists [AChunk 3], [], None. repeat split. destruct seekable; (eexists; split; [vm_compute; reflexivity|vm_compute; reflexivity]).
Qed.

(** The sample document: a node at the top, one below, and one that is not there. *)
Example pick_ex : zlib_roundtrip release /\ opened_doc (env := release) 7400 sample_nodes (sample_foot 7400) [x41; x42] true (sample_at true) /\
  pick (env := release) true 60 s_c [] (sample_at true) = Some (Some [VArrI32 [1; -2; 3]%Z; VArrBool [true; false]; VBinary [x01; xff]]) /\
  pick (env := release) false 60 s_a [[]] (sample_at true) = Some (Some [VBool true]) /\
  pick (env := release) false 60 s_a [s_c] (sample_at true) = Some None.
Proof. split; [apply stored_roundtrip|]. split; [apply sample_open|]. repeat split; vm_compute; reflexivity. Qed.

(** Over a reader that cannot seek, the same client on the same document is given, without an
    error, the attributes of a node that is not in the document, and fails to learn that a node is
    not there. *)
Theorem C87_plain_refuted : opened_doc (env := release) 7400 sample_nodes (sample_foot 7400) [x41; x42] false (sample_at false) /\
  lookup s_a [[]] sample_nodes = Some [VBool true] /\ lookup s_a [s_c] sample_nodes = None /\
  (forall fuel, 60 <= fuel -> pick (env := release) false fuel s_a [[]] (sample_at false) = Some (Some [])) /\
  (forall fuel, 60 <= fuel -> pick (env := release) false fuel s_a [s_c] (sample_at false) = None).
Proof.
  split; [apply sample_open|]. split; [reflexivity|]. split; [reflexivity|].
  split; intros fuel L; replace fuel with (60 + (fuel - 60)) by lia; generalize (fuel - 60); intros k; vm_compute; reflexivity.
Qed.

(** In a file with a damaged array the client still finds a node that is not in the tree. *)
Theorem C87_any_file_refuted : exists p t s f, opened (swallowed 7) [] [] true None p /\
  load_tree (env := release) p = (Ok (t, inr f), s) /\ descend t (tr_root t) s_a [s_hi] = None /\
  pick (env := release) false 60 s_a [s_hi] p = Some (Some []).
Proof.
  do 4 eexists. split; [eexists; split; [vm_compute; reflexivity|reflexivity]|]. split; [vm_compute; reflexivity|]. split; vm_compute; reflexivity.
Qed.
End PickCases.

Print Assumptions C87_picked_partial.
Print Assumptions C87_as_in_tree_partial.
Print Assumptions PickCases.C87_plain_refuted.
Print Assumptions PickCases.C87_any_file_refuted.
