(** C73, C89: growing a jungle (GrowJungle).

    C73 as stated (merging two nodes keeps all their cases) is false: the merged
    node's new end is written to a copy.  What holds: growing ends; every position
    of the cases belongs to exactly one of: a leaf, a node merged away, the cases
    whose value was missing (without splitmissing); the prediction of a leaf is that
    of exactly its cases, and they reach it from the root.  Without merges this is
    the partition claimed, and in exact arithmetic the Gini, entropy and numerical
    targets never merge. *)
From Coq Require Import Reals Lra.
From Verif Require Import Go GoLemmas F64 Exact F64Order F64Round ModelFeature ModelSplit SplitSpec SplitProofs ModelTree TreeSpec
  ModelSearch SearchSpec GrowSpec TotalSearch ModelTargets TargetProofs ModelGrow SplitterProofs Dependable GrownSpec
  GrowProofs ModelJungle JungleProofs ModelImpurity ImpuritySpec ImpurityProofs PropImpurity PropGrow PropGrow2.
From Verif Require PropCatSearch PropSplitter PropSearch PropFeatureSearch.
Local Open Scope string_scope.
Local Open Scope nat_scope.
Local Open Scope list_scope.

(** ** The result of growing, as a set of nodes with cases *)
Definition leaves {A St K} (s : jstate A St K) : list entry := filter (leafy (sHeap s)) (sNodes s).
Definition merged {A St K} (s : jstate A St K) : list entry := filter eDead (sNodes s).
(** The cases an entry stands for. *)
Definition held {A St K} (s : jstate A St K) (e : entry) : list nat := win (sCases s) (eStart e) (eEnd e - eStart e).

Lemma win_nth (l : list nat) lo n : lo + n <= length l -> win l lo n = map (fun x => nth x l 0) (seq lo n).
Proof.
  revert lo. induction n as [|n IH]; intros lo H; [reflexivity|].
  cbn [seq map]. rewrite <- (IH (S lo)) by lia. unfold win.
  assert (Q : skipn lo l = nth lo l 0 :: skipn (S lo) l).
  { clear IH. revert l H. induction lo as [|lo IHl]; intros [|x l] H; cbn in H; try lia; [reflexivity|].
    cbn [skipn nth]. apply IHl. lia. }
  rewrite Q. reflexivity.
Qed.
Lemma all_nth (l : list nat) : map (fun x => nth x l 0) (seq 0 (length l)) = l.
Proof. rewrite <- win_nth by lia. apply win_all. reflexivity. Qed.

Section Jungle.
  Variable A : arith.
  Variable St : Type.
  Variable T : target A St.
  Variable predict : list nat -> res string.
  Variable rnd : nat -> nat.
  Variable K : Type.
  Variable kCopyFrom : K -> K.
  Variable kShuffleCases : (nat -> nat) -> list nat -> K -> res K.
  Variable kTarget : K -> target A St.
  Variable p : params.

  Local Notation growable := (growable A St T predict K kCopyFrom kShuffleCases kTarget p).
  Local Notation jungle := (GrowJungle A St T predict rnd K kCopyFrom kShuffleCases kTarget p).

  Lemma jungle_inv ok ready kok cases g : growable ok ready kok cases g ->
    exists s depth, jungle (S (length cases)) cases g = Ok s /\
      jinv A St T predict K p ok ready kok (gCans g) (gOob g) cases (length (sNodes s)) (length (sNodes s)) depth s.
  Proof.
    intros [H1 H2 H3 H4 H5 H6 H7 H8 H9 H10 H11 H12 H13].
    destruct (GrowJungle_ok A St T predict rnd K kCopyFrom kShuffleCases kTarget p ok ready kok H1 H2 H5) with
      (cans0 := gCans g) (oob0 := gOob g) (cases0 := cases) (fuel := S (length cases)) (g := g) as (s & E & depth & I); auto.
    - intros V. apply H12; auto.
    - intros O. apply H13; auto.
    - constructor; auto.
      + intros O. apply H13; auto.
      + intros V. apply H12; auto.
    - exists s, depth. auto.
  Qed.

  Lemma held_spans ok ready kok cans oob cases cur last depth (s : jstate A St K) es :
    jinv A St T predict K p ok ready kok cans oob cases cur last depth s -> incl es (sNodes s) ->
    concat (map (held s) es) = map (fun x => nth x (sCases s) 0) (spans es).
  Proof.
    intros I. induction es as [|e es IH]; intros Hi; [reflexivity|].
    cbn [map concat]. change (spans (e :: es)) with (span e ++ spans es). rewrite map_app, IH by (intros x Hx; apply Hi; right; auto).
    f_equal. assert (He : In e (sNodes s)) by (apply Hi; left; auto). apply In_nth_error in He as (i & Ei).
    destruct (j_entry _ _ _ _ _ _ _ _ _ _ _ _ _ _ _ _ I _ _ Ei) as (B1 & B2 & _).
    pose proof (Permutation_length (j_perm _ _ _ _ _ _ _ _ _ _ _ _ _ _ _ _ I)) as LN.
    unfold held, span, width. apply win_nth. lia.
  Qed.

(** Growing ends without a panic.  The cases in the leaves, those of nodes that were
    merged away and those dropped for missing values are together the cases given;
    nothing is dropped with splitmissing. *)
Theorem C73_every_case_accounted_for : forall ok ready kok cases g, growable ok ready kok cases g ->
  exists s dropped, jungle (S (length cases)) cases g = Ok s /\
    Permutation (concat (map (held s) (leaves s)) ++ concat (map (held s) (merged s)) ++ dropped) cases /\
    (pSplitMissing p = true -> dropped = []).
Proof.
  intros ok ready kok cases g H. destruct (jungle_inv ok ready kok cases g H) as (s & depth & E & I).
  exists s. destruct (j_part _ _ _ _ _ _ _ _ _ _ _ _ _ _ _ _ I) as (dr & P & Q).
  exists (map (fun x => nth x (sCases s) 0) dr). split; auto. split; [|intros Sm; rewrite Q; auto].
  assert (I1 : incl (leaves s) (sNodes s)) by (intros x Hx; apply filter_In in Hx; tauto).
  assert (I2 : incl (merged s) (sNodes s)) by (intros x Hx; apply filter_In in Hx; tauto).
  rewrite (held_spans _ _ _ _ _ _ _ _ _ _ _ I I1), (held_spans _ _ _ _ _ _ _ _ _ _ _ I I2), <- !map_app.
  pose proof (j_perm _ _ _ _ _ _ _ _ _ _ _ _ _ _ _ _ I) as P0.
  etransitivity; [apply Permutation_map, P|]. rewrite (Permutation_length P0), all_nth. symmetry. exact P0.
Qed.

(** Without merges, and with splitmissing, the leaves partition the cases. *)
Theorem C73_partition_without_merges_partial : forall ok ready kok cases g, growable ok ready kok cases g ->
  pSplitMissing p = true ->
  exists s, jungle (S (length cases)) cases g = Ok s /\
    (merged s = [] -> Permutation (concat (map (held s) (leaves s))) cases).
Proof.
  intros ok ready kok cases g H Sm. destruct (C73_every_case_accounted_for ok ready kok cases g H) as (s & dr & E & P & Q).
  exists s. split; auto. intros M. rewrite M, (Q Sm) in P. cbn in P. rewrite app_nil_r in P. exact P.
Qed.

(** Nodes other than the root have cases.  The prediction of a leaf is the one for
    exactly the cases it holds, and these cases go from the root to it.  Leaves are different nodes. *)
Theorem C73_leaves_predict_their_cases : forall ok ready kok cases g, growable ok ready kok cases g ->
  exists s, jungle (S (length cases)) cases g = Ok s /\ NoDup (map eN (leaves s)) /\
    (forall i e, nth_error (sNodes s) (S i) = Some e -> held s e <> []) /\
    (forall e, In e (leaves s) -> exists n, nth_error (sHeap s) (eN e) = Some n /\ dSpl (jD n) = None /\
       predict (held s e) = Ok (dPred (jD n)) /\
       (forall c, In c (held s e) -> reaches (pData p) (sHeap s) c 0 (eN e))).
Proof.
  intros ok ready kok cases g H. destruct (jungle_inv ok ready kok cases g H) as (s & depth & E & I).
  exists s. split; auto. pose proof I as [H1 H2 H3 H4 H5 H6 H7 H8 H9 H10 H11 H12].
  split; [|split].
  - clear -H5. unfold leaves. induction (sNodes s) as [|e l IH]; cbn; [constructor|]. inversion H5; subst.
    destruct (leafy (sHeap s) e); cbn; auto. constructor; auto. intros Q. apply H1.
    apply in_map_iff in Q as (x & Ex & Hx). apply in_map_iff. exists x. split; auto. apply filter_In in Hx. tauto.
  - intros i e Ei Q.
    destruct (H4 (S i) e Ei) as (B1 & B2 & _ & _ & B5). destruct B5 as [B5 _]; [lia|].
    apply (f_equal (@length nat)) in Q. unfold held in Q.
    pose proof (Permutation_length H1) as LN. rewrite win_length in Q by lia. unfold width in B5. cbn in Q. lia.
  - intros e He. apply filter_In in He as [He Le]. apply In_nth_error in He as (i & Ei).
    assert (Hi : i < length (sNodes s)) by (apply nth_error_Some; congruence).
    destruct (H7 i e Hi Ei Le) as (n & En & Pn). exists n. split; auto. split.
    + unfold leafy, is_terminal in Le. rewrite En in Le. destruct (dSpl (jD n)); auto. rewrite andb_false_r in Le. discriminate.
    + split; [exact Pn|]. intros c Hc. apply (H10 i e c Ei Le Hc).
Qed.

(** Every node that was merged away takes its cases with it: they are in no leaf.
    (False instead of what C73 claims, for every run with a merge.) *)
Theorem C73_merged_cases_lost_refuted : forall ok ready kok cases g, growable ok ready kok cases g ->
  exists s, jungle (S (length cases)) cases g = Ok s /\
    (merged s <> [] -> length (concat (map (held s) (leaves s))) < length cases) /\
    (forall e, In e (merged s) -> exists n, nth_error (sHeap s) (eN e) = Some n /\ dPred (jD n) = EmptyString).
Proof.
  intros ok ready kok cases g H. destruct (C73_every_case_accounted_for ok ready kok cases g H) as (s & dr & E & P & _).
  exists s. split; auto.
  destruct (jungle_inv ok ready kok cases g H) as (s' & depth & E' & I). assert (s' = s) by congruence. subst s'.
  pose proof I as [H1 H2 H3 H4 H5 H6 H7 H8 H9 H10 H11 H12].
  pose proof (Permutation_length H1) as LN.
  split.
  - intros M. rewrite <- (Permutation_length P), !app_length.
    enough (0 < length (concat (map (held s) (merged s)))) by lia.
    destruct (merged s) as [|e es] eqn:Em; [congruence|].
    assert (He : In e (merged s)) by (rewrite Em; left; auto).
    apply filter_In in He as [He D]. apply In_nth_error in He as (i & Ei).
    destruct (H4 i e Ei) as (B1 & B2 & _ & _ & B5).
    cbn [map concat]. rewrite app_length. unfold held at 1. rewrite win_length by lia.
    assert (Hw : 0 < eEnd e - eStart e \/ i = 0) by (destruct i; [auto|left; apply B5; lia]).
    destruct Hw as [Hw| ->]; [lia|]. rewrite (H12 e Ei) in D. discriminate.
  - intros e He. apply filter_In in He as [He D]. apply In_nth_error in He as (i & Ei).
    destruct (H8 i e (or_intror D) Ei) as (n & En & Dn). exists n. split; auto. rewrite Dn. reflexivity.
Qed.

(** With a target for which two sets of cases are never better together, nothing is merged. *)
Lemma calm_merged ok ready kok cases g s : growable ok ready kok cases g -> calm A St T ok ready ->
  jungle (S (length cases)) cases g = Ok s -> merged s = [].
Proof.
  intros H Cm E. destruct (jungle_inv ok ready kok cases g H) as (s' & depth & E' & I). assert (s' = s) by congruence. subst s'.
  unfold merged. apply filter_none. intros e He. apply (j_alive _ _ _ _ _ _ _ _ _ _ _ _ _ _ _ _ I Cm e He).
Qed.
End Jungle.

Lemma not_lt v w : (v <= w)%R -> nltb XR (nofZ XR 0) (nsub XR (Some v : xr) (Some w : xr)) = false.
Proof. intros H. cbn. apply Rltb_false. cbn. lra. Qed.

Lemma gini_calm data n : calm XR cst (gini_target XR data) (in_data data n) (cst_ready n).
Proof.
  intros l r tg v tg1 w tg2 Hl Hr Ol Or [R1 (R2 & R3 & R4)] E1 E2.
  cbn [tSplit tImp gini_target counting_target] in E1, E2.
  destruct (C43_split_never_increases_gini data n l r None (snd tg) R2 R3 R4 Hl Hr) as (x & k & Es & _ & _ & Le).
  { intros q [<-|[<-|[]]]; auto. }
  rewrite Es in E1. cbn [bind] in E1. injection E1 as <- <-. cbn [fst] in E2.
  rewrite (gini_value data n) in E2; auto.
  2:{ unfold labelled. apply Forall_app. split; auto. }
  2:{ destruct l; [congruence|discriminate]. }
  cbn [bind] in E2. injection E2 as <- _. cbn [parts concat] in Le. rewrite app_nil_r in Le.
  apply not_lt; auto.
Qed.
Lemma entropy_calm data n : calm XR cst (entropy_target XR xlog data) (in_data data n) (cst_ready n).
Proof.
  intros l r tg v tg1 w tg2 Hl Hr Ol Or [R1 (R2 & R3 & R4)] E1 E2.
  cbn [tSplit tImp entropy_target counting_target] in E1, E2.
  destruct (C47_split_never_increases_entropy data n l r None (snd tg) R2 R3 R4 Hl Hr) as (x & k & Es & _ & Le).
  { intros q [<-|[<-|[]]]; auto. }
  rewrite Es in E1. cbn [bind] in E1. injection E1 as <- <-. cbn [fst] in E2.
  rewrite (entropy_value data n) in E2; auto.
  2:{ unfold labelled. apply Forall_app. split; auto. }
  2:{ destruct l; [congruence|discriminate]. }
  cbn [bind] in E2. injection E2 as <- _. cbn [parts concat] in Le. rewrite app_nil_r in Le.
  apply not_lt; auto.
Qed.
Lemma num_calm xs : calm XR (sums XR) (num_target XR (numeric xs)) (fun c => c < length (numeric xs)) (fun _ => True).
Proof.
  intros l r tg v tg1 w tg2 Hl Hr Ol Or _ E1 E2.
  cbn [tSplit tImp num_target] in E1, E2. unfold numeric in Ol, Or. rewrite map_length in Ol, Or.
  destruct (C44_split_never_exceeds_parent xs l r None tg Hl Hr) as (x & k & par & Es & _ & Ep & Le).
  { intros q [<-|[<-|[]]]; auto. }
  rewrite Es in E1. injection E1 as <- <-. cbn [parts concat] in Ep. rewrite app_nil_r in Ep.
  rewrite Ep in E2. cbn [bind] in E2. injection E2 as <- _. apply not_lt. lra.
Qed.

(** The three usual targets in exact arithmetic: no merges, hence the claim.  (In
    float64 rounding can make two nodes look better together, see below; other
    targets may merge in exact arithmetic too.) *)
Theorem C73_exact_targets_partial :
  (forall data n predict rnd K kCopyFrom kShuffleCases kTarget p ready kok cases g s,
     ready = cst_ready n ->
     growable XR cst (gini_target XR data) predict K kCopyFrom kShuffleCases kTarget p (in_data data n) ready kok cases g ->
     GrowJungle XR cst (gini_target XR data) predict rnd K kCopyFrom kShuffleCases kTarget p (S (length cases)) cases g = Ok s ->
     merged s = [] /\ (pSplitMissing p = true -> Permutation (concat (map (held s) (leaves s))) cases)) /\
  (forall data n predict rnd K kCopyFrom kShuffleCases kTarget p ready kok cases g s,
     ready = cst_ready n ->
     growable XR cst (entropy_target XR xlog data) predict K kCopyFrom kShuffleCases kTarget p (in_data data n) ready kok cases g ->
     GrowJungle XR cst (entropy_target XR xlog data) predict rnd K kCopyFrom kShuffleCases kTarget p (S (length cases)) cases g = Ok s ->
     merged s = [] /\ (pSplitMissing p = true -> Permutation (concat (map (held s) (leaves s))) cases)) /\
  (forall xs predict rnd K kCopyFrom kShuffleCases kTarget p kok cases g s,
     growable XR (sums XR) (num_target XR (numeric xs)) predict K kCopyFrom kShuffleCases kTarget p
       (fun c => c < length (numeric xs)) (fun _ => True) kok cases g ->
     GrowJungle XR (sums XR) (num_target XR (numeric xs)) predict rnd K kCopyFrom kShuffleCases kTarget p (S (length cases)) cases g = Ok s ->
     merged s = [] /\ (pSplitMissing p = true -> Permutation (concat (map (held s) (leaves s))) cases)).
Proof.
  split; [|split].
  - intros data n predict rnd K kc ks kt p ready kok cases g s -> H E.
    pose proof (calm_merged XR cst _ predict rnd K kc ks kt p _ _ kok cases g s H (gini_calm data n) E) as M.
    split; auto. intros Sm.
    destruct (C73_partition_without_merges_partial XR cst _ predict rnd K kc ks kt p _ _ kok cases g H Sm) as (s' & E' & Q).
    assert (s' = s) by congruence. subst. auto.
  - intros data n predict rnd K kc ks kt p ready kok cases g s -> H E.
    pose proof (calm_merged XR cst _ predict rnd K kc ks kt p _ _ kok cases g s H (entropy_calm data n) E) as M.
    split; auto. intros Sm.
    destruct (C73_partition_without_merges_partial XR cst _ predict rnd K kc ks kt p _ _ kok cases g H Sm) as (s' & E' & Q).
    assert (s' = s) by congruence. subst. auto.
  - intros xs predict rnd K kc ks kt p kok cases g s H E.
    pose proof (calm_merged XR (sums XR) _ predict rnd K kc ks kt p _ _ kok cases g s H (num_calm xs) E) as M.
    split; auto. intros Sm.
    destruct (C73_partition_without_merges_partial XR (sums XR) _ predict rnd K kc ks kt p _ _ kok cases g H Sm) as (s' & E' & Q).
    assert (s' = s) by congruence. subst. auto.
Qed.

(** ** A merge in float64

    Twenty cases.  The first feature separates five cases from fifteen, the second
    one splits both groups; the middle nodes have 2 to 1 and 8 to 4 cases of the two
    classes, the same shares, and rounding makes them look better together. *)
Definition jclass : list nat := [1; 1; 0; 0; 1] ++ repeat 0 8 ++ repeat 1 4 ++ [1; 1; 1].
Definition jside : list nat := repeat 0 5 ++ repeat 1 15.
Definition jsub : list nat := [0; 0; 1; 1; 1] ++ repeat 0 12 ++ repeat 1 3.
Definition jp : params := mkP (PropSplitter.feats [jside; jsub]) 1 1 false false false false 0 true.
Definition jstart (n nf : nat) : gstate F64 cst unit := mkG F64 cst unit (seq 0 nf) [] (PropSearch.fresh n) tt None None.
Definition gini_jungle (classes : list nat) (rnd : nat -> nat) (p : params) (n nf : nat) :=
  GrowJungle F64 cst (gini_target F64 classes) (cFindPredicted (label classes)) rnd unit (fun k => k)
    (fun _ _ k => Ok k) (fun _ => gini_target F64 classes) p (S n) (seq 0 n) (jstart n nf).
Definition jrun := gini_jungle jclass (fun d => if d =? 1 then 1 else 0) jp 20 2.
(** Of a result: leaves with their cases and prediction, and the merged nodes with their cases. *)
Definition jview {A St K} (r : res (jstate A St K)) :=
  match r with
  | Ok s => Some (map (fun e => (eN e, held s e, option_map (fun n => dPred (jD n)) (nth_error (sHeap s) (eN e)))) (leaves s),
                  map (fun e => (eN e, held s e)) (merged s))
  | _ => None
  end.

Lemma gini_jungle_growable classes fs p n : n = length classes ->
  forallb (fun c => c <? 2) classes = true -> pData p = PropSplitter.feats fs ->
  forallb (fun d => (length d =? n) && forallb (fun c => c <? 2) d) fs = true ->
  1 <= pLeaf p -> pTry p <= length fs -> pVet p = false -> pEvalOob p = false ->
  growable F64 cst (gini_target F64 classes) (cFindPredicted (label classes)) unit (fun k => k) (fun _ _ k => Ok k)
    (fun _ => gini_target F64 classes) p (in_data classes 2) (cst_ready 2) (fun _ => True) (seq 0 n) (jstart n (length fs)).
Proof.
  intros En Hk Ed Hf E1 E2 E3 E4.
  constructor; try congruence; auto.
  - apply gini_dependable.
  - apply sane_F64.
  - apply label_predicts.
  - apply Forall_forall. intros c Hc. apply in_seq in Hc. split; [lia|]. rewrite forallb_forall in Hk.
    apply Nat.ltb_lt, Hk, nth_In. lia.
  - cbn [jstart gCans]. rewrite seq_length. auto.
  - intros i Hi. cbn [jstart gCans] in Hi. apply in_seq in Hi. rewrite forallb_forall in Hf.
    destruct (@get_ok _ fs i) as (d & _ & Gd); [lia|].
    exists (FCat (PropCatSearch.cats ["a"; "b"] d false)). split; [|split; [|split; [exact I|congruence]]].
    + rewrite Ed. unfold PropSplitter.feats. rewrite nth_error_map, Gd. reflexivity.
    + specialize (Hf d (nth_error_In _ _ Gd)). apply andb_true_iff in Hf as [F1 F2]. apply Nat.eqb_eq in F1.
      apply PropSplitter.cats_searchable.
      * rewrite F1. apply PropSplitter.upto_cases. lia.
      * apply Forall_forall. intros v Hv. rewrite forallb_forall in F2. apply Nat.ltb_lt. apply F2. exact Hv.
  - split; cbn; rewrite ?repeat_length, ?seq_length; auto.
  - repeat split; cbn; auto.
  - intros l Q. discriminate.
  - intros l Q. discriminate.
Qed.

Example ex_merge_growable :
  growable F64 cst (gini_target F64 jclass) (cFindPredicted (label jclass)) unit (fun k => k) (fun _ _ k => Ok k)
    (fun _ => gini_target F64 jclass) jp (in_data jclass 2) (cst_ready 2) (fun _ => True) (seq 0 20) (jstart 20 2).
Proof. apply (gini_jungle_growable jclass [jside; jsub]); try reflexivity; cbn; lia. Qed.

(** Twelve of the twenty cases are in no leaf.  They are sent to the leaf of three
    other cases. *)
Theorem C73_merge_happens_refuted :
  jview jrun = Some ([(4, [0; 1], Some "y"); (5, [2; 3; 4], Some "x"); (8, [17; 18; 19], Some "y")],
                     [(7, [6; 7; 8; 10; 11; 12; 13; 14; 5; 15; 16; 9])]) /\
  exists s, jrun = Ok s /\ Forall (fun c => reaches (pData jp) (sHeap s) c 0 5) (seq 5 12).
Proof.
  split; [vm_compute; reflexivity|].
  assert (Q : match jrun with
              | Ok s => forallb (fun c => match nth_error (sHeap s) 0 with
                                          | Some n => match jnext (pData jp) n c with
                                                      | Some k => match nth_error (sHeap s) k with
                                                                  | Some m => match jnext (pData jp) m c with
                                                                              | Some b => b =? 5 | None => false end
                                                                  | None => false end
                                                      | None => false end
                                          | None => false end) (seq 5 12)
              | _ => false end = true) by (vm_compute; reflexivity).
  destruct jrun as [s| |]; try discriminate. exists s. split; auto.
  rewrite forallb_forall in Q. apply Forall_forall. intros c Hc. specialize (Q c Hc). cbv beta in Q.
  destruct (nth_error (sHeap s) 0) as [n|] eqn:E0; [|discriminate].
  destruct (jnext (pData jp) n c) as [k|] eqn:E1; [|discriminate].
  destruct (nth_error (sHeap s) k) as [m|] eqn:E2; [|discriminate].
  destruct (jnext (pData jp) m c) as [b|] eqn:E3; [|discriminate]. apply Nat.eqb_eq in Q. subst b.
  eapply r_next; [exact E0|exact E1|]. eapply r_next; [exact E2|exact E3|]. constructor.
Qed.

(** ** C89

    All features are tried for every node, and yet the node of cases 0 and 1, which
    has both classes, is a leaf, though a search on its cases finds a split by
    feature 2: that feature was found constant in the other half of the cases. *)
Definition kclass : list nat := [0; 1; 0; 0; 0; 0; 1; 1; 1; 1; 0].
Definition kfeats : list (list nat) :=
  [[0; 0; 0; 0; 0; 0; 1; 1; 1; 1; 1]; [0; 0; 0; 0; 0; 0; 0; 0; 0; 0; 1];
   [0; 1; 1; 1; 0; 0; 0; 0; 0; 0; 0]; [0; 0; 1; 1; 1; 1; 0; 1; 1; 1; 1]].
Definition kp : params := mkP (PropSplitter.feats kfeats) 4 1 false false false false 0 true.
Definition krun := gini_jungle kclass (fun _ => 0) kp 11 4.

Example ex_constants_growable :
  growable F64 cst (gini_target F64 kclass) (cFindPredicted (label kclass)) unit (fun k => k) (fun _ _ k => Ok k)
    (fun _ => gini_target F64 kclass) kp (in_data kclass 2) (cst_ready 2) (fun _ => True) (seq 0 11) (jstart 11 4).
Proof. apply (gini_jungle_growable kclass kfeats); try reflexivity; cbn; lia. Qed.

Theorem C89_skipped_feature_is_constant_refuted :
  jview krun = Some ([(4, [0; 1], Some "x"); (5, [2; 4; 5; 3], Some "x"); (7, [7; 9; 6; 8], Some "y"); (8, [10], Some "x")], []) /\
  (exists b, BestSplitter F64 cst (gini_target F64 kclass) (fun _ => 0) unit (fun k => k) (fun _ _ k => Ok k)
     (fun _ => gini_target F64 kclass) kp [0; 1] (seq 0 4) [] 0 (PropSearch.fresh 11) tt = Ok b /\
     bFi b = 2 /\ bCode b <> CNil /\ fltb f0 (bDec b) = true) /\
  (* the tree grown depth first does split these cases *)
  option_map (fun '(sp, _) => sp) (shape (gini_grow kclass 12 kp newNode (seq 0 11) (jstart 11 4))) =
    Some [[]; [DL]; [DL; DL]; [DR]].
Proof.
  split; [vm_compute; reflexivity|]. split.
  - set (r := BestSplitter _ _ _ _ _ _ _ _ _ _ _ _ _ _ _).
    assert (Q : match r with Ok b => Some (bFi b, negb (isCNil (bCode b)), fltb f0 (bDec b)) | _ => None end = Some (2, true, true))
      by (vm_compute; reflexivity).
    destruct r as [b| |]; try discriminate. exists b. injection Q as Q1 Q2 Q3. split; auto. split; auto. split; auto.
    intros Q. rewrite Q in Q2. discriminate.
  - vm_compute. reflexivity.
Qed.

Print Assumptions C73_every_case_accounted_for.
Print Assumptions C73_partition_without_merges_partial.
Print Assumptions C73_leaves_predict_their_cases.
Print Assumptions C73_merged_cases_lost_refuted.
Print Assumptions C73_exact_targets_partial.
Print Assumptions C73_merge_happens_refuted.
Print Assumptions C89_skipped_feature_is_constant_refuted.
