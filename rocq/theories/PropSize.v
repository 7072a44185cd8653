(** C148: the size of a grown tree. *)
From Verif Require Import Go GoLemmas F64 ModelFeature ModelSplit SplitSpec ModelTree TreeSpec
  ModelBallot ModelSearch GrowSpec ModelTargets ModelGrow GrownSpec GrowProofs PropGrow PropGrow2.
From Verif Require PropTree PropSearch PropSplitter.
Local Open Scope string_scope.
Local Open Scope nat_scope.
Local Open Scope list_scope.

(** ** C148.  The claim in full: leafSize bounds the size of a tree.  A tree grown from n cases
    has at most n / leafSize - 1 splits, so at most 2 n / leafSize - 1 nodes (3 n / leafSize - 2
    with -splitmissing), and no node deeper than n / leafSize; a node at depth d has at most
    n - d leafSize cases. *)
Definition splits (n : node) : nat := length (filter (fun d => negb (terminal d)) (nodes_of n)).

Lemma three_ways f code cs : length (to_left f code cs) + length (to_right f code cs) + length (to_missing f cs) = length cs.
Proof.
  unfold to_left, to_right, to_missing. induction cs as [|c cs IH]; [reflexivity|]. cbn [filter].
  destruct (fmissing f c), (coded_left f code c); cbn [negb andb length]; lia.
Qed.

Section Size.
  Variable A : arith.
  Variable St : Type.
  Variable T : target A St.
  Variable predict : list nat -> res string.
  Variable rnd : nat -> nat.
  Variable K : Type.
  Variable kCopyFrom : K -> K.
  Variable kShuffleCases : (nat -> nat) -> list nat -> K -> res K.
  Variable kTarget : K -> target A St.
  Variable p : params.
  Local Notation grown := (grown A St T predict rnd K kCopyFrom kShuffleCases kTarget p).
  Local Notation Grow := (Grow A St T predict rnd K kCopyFrom kShuffleCases kTarget).

  Lemma splits_node d l r m : splits (Node d l r m) = (if terminal d then 0 else 1) + splits l + splits r + splits m.
  Proof. unfold splits. cbn [nodes_of filter]. rewrite !filter_app. destruct (terminal d); cbn [negb length]; rewrite !app_length; lia. Qed.
  Lemma nodes_node d l r m : length (nodes_of (Node d l r m)) = 1 + length (nodes_of l) + length (nodes_of r) + length (nodes_of m).
  Proof. cbn [nodes_of length]. rewrite !app_length. lia. Qed.
  Lemma grown_size cans : forall n depth cases us, grown cans depth cases n us ->
    pLeaf p * S (splits n) <= Nat.max (pLeaf p) (length cases) /\
    length (nodes_of n) = 1 + (if pSplitMissing p then 3 else 2) * splits n.
  Proof.
    induction n as [|d l IHl r IHr m IHm]; intros depth cases us H; [destruct H|]. cbn [GrownSpec.grown] in H. rewrite splits_node, nodes_node.
    destruct (terminal d).
    { destruct H as (-> & -> & -> & _). change (splits Nil) with 0. cbn [nodes_of length]. split; nia. }
    destruct H as (f & dec & ul & ur & um & _ & _ & _ & _ & _ & _ & _ & Ll & Lr & Hl & Hr & Hm & _).
    pose proof (three_ways f (dCode d) cases) as W. apply IHl in Hl as [Sl Nl]. apply IHr in Hr as [Sr Nr].
    assert (Sm : pLeaf p * splits m <= length (to_missing f cases) /\ length (nodes_of m) = if pSplitMissing p then 1 + 3 * splits m else 0).
    { destruct (pSplitMissing p) eqn:Es; cbn [andb] in Hm.
      - destruct (negb (length (to_missing f cases) =? 0)).
        + apply IHm in Hm as [Sm Nm]. split; [nia|exact Nm].
        + destruct Hm as [-> _]. cbn. split; [lia|reflexivity].
      - destruct Hm as [-> _]. cbn. split; [lia|reflexivity]. }
    assert (Zm : pSplitMissing p = false -> splits m = 0).
    { intros E. rewrite E in Hm. cbn [andb] in Hm. destruct Hm as [-> _]. reflexivity. }
    destruct Sm as [Sm Nm]. split; [nia|]. rewrite Nl, Nr, Nm. destruct (pSplitMissing p); [lia|]. rewrite (Zm eq_refl). lia.
  Qed.
  Lemma grown_deep cans fm : fmData fm = pData p -> forall q n depth cases us d l r m, grown cans depth cases n us -> at_path n q = Node d l r m ->
    pLeaf p * length q + length (arriving fm n q cases) <= length cases.
  Proof.
    intros Efm. induction q as [|s q IH]; intros n depth cases us d l r m H Eq; [cbn; lia|].
    destruct n as [|d0 l0 r0 m0]; [cbn in Eq; rewrite at_path_nil in Eq; discriminate|]. cbn [at_path arriving length] in *.
    cbn [GrownSpec.grown] in H. destruct (terminal d0).
    { destruct H as (-> & -> & -> & _). destruct s; cbn [child] in Eq; rewrite at_path_nil in Eq; discriminate. }
    destruct H as (f & dec & ul & ur & um & _ & H1 & H2 & _ & _ & _ & _ & Ll & Lr & Hl & Hr & Hm & _).
    pose proof (three_ways f (dCode d0) cases) as W. destruct (heads_split p fm d0 f cases Efm H1 H2) as (E1 & E2 & E3).
    destruct s; cbn [child] in Eq |- *.
    - rewrite E1. specialize (IH _ _ _ _ _ _ _ _ Hl Eq). nia.
    - rewrite E2. specialize (IH _ _ _ _ _ _ _ _ Hr Eq). nia.
    - rewrite E3. destruct (pSplitMissing p && negb (length (to_missing f cases) =? 0)).
      + specialize (IH _ _ _ _ _ _ _ _ Hm Eq). nia.
      + destruct Hm as [Em _]. destruct (pSplitMissing p); [|subst m0; rewrite at_path_nil in Eq; discriminate]. subst m0.
        destruct q as [|s q]; [cbn [arriving length]; nia|]. destruct s; cbn in Eq; rewrite at_path_nil in Eq; discriminate.
  Qed.
End Size.

(** Every tree that is grown as BestSplitter evaluates its splits (C40). *)
Theorem C148_size : forall A St (T : target A St) predict rnd K kCopyFrom kShuffleCases kTarget p ok ready kok cases g,
  growable A St T predict K kCopyFrom kShuffleCases kTarget p ok ready kok cases g ->
  forall fuel n g', length cases < fuel -> Grow A St T predict rnd K kCopyFrom kShuffleCases kTarget fuel p newNode cases g = Ok (n, g') ->
  pLeaf p * S (splits n) <= Nat.max (pLeaf p) (length cases) /\
  length (nodes_of n) = 1 + (if pSplitMissing p then 3 else 2) * splits n /\
  forall fm q d l r m, fmData fm = pData p -> at_path n q = Node d l r m -> pLeaf p * length q + length (arriving fm n q cases) <= length cases.
Proof.
  intros A St T predict rnd K kCopyFrom kShuffleCases kTarget p ok ready kok cases g Hg fuel n g' Hf E.
  destruct (growth A St T predict rnd K kCopyFrom kShuffleCases kTarget p ok ready kok cases g Hg) as (n' & g2 & us & En & G & _).
  rewrite (En fuel Hf) in E. injection E as -> ->. destruct (grown_size _ _ _ _ _ _ _ _ _ p (gCans g) n 0 cases us G) as [S1 S2].
  split; [exact S1|]. split; [exact S2|]. intros fm q d l r m Efm Eq. eapply grown_deep; eauto.
Qed.
Print Assumptions C148_size.
(** In numbers of nodes and leaves: at least two leaves' worth of cases give at most 2 n / leafSize - 1 nodes. *)
Corollary C148_nodes : forall A St (T : target A St) predict rnd K kCopyFrom kShuffleCases kTarget p ok ready kok cases g,
  growable A St T predict K kCopyFrom kShuffleCases kTarget p ok ready kok cases g -> pSplitMissing p = false -> pLeaf p <= length cases ->
  forall fuel n g', length cases < fuel -> Grow A St T predict rnd K kCopyFrom kShuffleCases kTarget fuel p newNode cases g = Ok (n, g') ->
  pLeaf p * S (length (nodes_of n)) <= 2 * length cases.
Proof.
  intros A St T predict rnd K kCopyFrom kShuffleCases kTarget p ok ready kok cases g Hg Es Hl fuel n g' Hf E.
  destruct (C148_size _ _ _ _ _ _ _ _ _ _ _ _ _ _ _ Hg fuel n g' Hf E) as (S1 & S2 & _). rewrite Es in S2. rewrite S2. nia.
Qed.
Print Assumptions C148_nodes.
(** No node is deeper than n / leafSize, whatever MaxDepth says. *)
Corollary C148_depth : forall A St (T : target A St) predict rnd K kCopyFrom kShuffleCases kTarget p ok ready kok cases g,
  growable A St T predict K kCopyFrom kShuffleCases kTarget p ok ready kok cases g ->
  forall fuel n g', length cases < fuel -> Grow A St T predict rnd K kCopyFrom kShuffleCases kTarget fuel p newNode cases g = Ok (n, g') ->
  forall q d l r m, at_path n q = Node d l r m -> pLeaf p * length q <= length cases.
Proof.
  intros A St T predict rnd K kCopyFrom kShuffleCases kTarget p ok ready kok cases g Hg fuel n g' Hf E q d l r m Eq.
  destruct (C148_size _ _ _ _ _ _ _ _ _ _ _ _ _ _ _ Hg fuel n g' Hf E) as (_ & _ & H).
  specialize (H (mkFM (pData p) [] []) q d l r m eq_refl Eq). lia.
Qed.
Print Assumptions C148_depth.

(** Four cases of alternating classes with leafSize 1: two splits and five nodes of the three and seven allowed (BestNumSplit does not cut two cases apart). *)
Definition zebra : list f64 := map f_of_Z [1; 2; 3; 4]%Z.
Definition zebra_p (leaf : nat) : params := mkP [FNum (PropSearch.plain zebra)] 1 leaf false false false false 0 false.
Definition count_of {G} (r : res (node * G)) : option (nat * nat) :=
  match r with Ok (n, _) => Some (splits n, length (nodes_of n)) | _ => None end.
Example C148_ex_growable leaf : 1 <= leaf ->
  growable F64 cst (gini_target F64 [0; 1; 0; 1]) (cFindPredicted (label [0; 1; 0; 1])) unit (fun k => k) (fun _ _ k => Ok k)
    (fun _ => gini_target F64 [0; 1; 0; 1]) (zebra_p leaf) (TargetProofs.in_data [0; 1; 0; 1] 2) (TargetProofs.cst_ready 2) (fun _ => True) (seq 0 4) (start 4 1).
Proof.
  intros H. apply single_growable with (vs := zebra); try reflexivity; try exact H; try (apply PropSplitter.upto_cases; cbn; lia); cbn; lia.
Qed.
Example C148_ex_sizes : count_of (gini_grow [0; 1; 0; 1] 10 (zebra_p 1) newNode (seq 0 4) (start 4 1)) = Some (2, 5) /\
  count_of (gini_grow [0; 1; 0; 1] 10 (zebra_p 2) newNode (seq 0 4) (start 4 1)) = Some (0, 1) /\
  count_of (gini_grow band_class 10 (band_p 0 true) newNode (seq 0 9) (start 9 1)) = Some (2, 7).
Proof. vm_compute. auto. Qed.
