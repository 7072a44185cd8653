(** C133: a tree does not depend on what earlier trees left in the memory of its goroutine. *)
From Verif Require Import Go GoLemmas F64 Exact ModelFeature ModelSample ModelImpurity ModelSplit ModelSearch ModelTargets ModelTargets2 ModelTree ModelGrow
  SplitterProofs GrowProofs PropByName PropImpurity PropImpurity2 PropRows PropGrow OrderProofs OrderlessTargets PropOrderless Lockstep LockstepTargets PropLockstep Leftover.
From Verif Require PropSearch PropCatSearch.
Local Open Scope string_scope.
Local Open Scope nat_scope.
Local Open Scope list_scope.

(** ** C133.  The claim in full: growforest and GrowRandomForest allocate the memory of the search
    once and use it for every tree a goroutine grows, together with the copy of the target that
    -vet shuffles and the nodes of the last tree.  Nothing of what is left there has an influence:
    every tree is the one that would grow in new memory. *)

(** Two runs that end alike: the same tree, candidates, out of bag cases, importances, depths and
    random draws; or both do not end. *)
Definition same_tree {A : arith} {St K : Type} (r r' : res (node * gstate A St K)) : Prop :=
  match r, r' with
  | Ok (n, s), Ok (n', s') =>
      n = n' /\ gCans s = gCans s' /\ gOob s = gOob s' /\ gImp s = gImp s' /\ gDepth s = gDepth s' /\ aDraw (gAl s) = aDraw (gAl s')
  | Ok _, _ => False
  | _, Ok _ => False
  | _, _ => True
  end.

(** One run follows the other, and the states after them are alike again. *)
Lemma leftover_follows A St (T : target A St) near holds predict rnd K kCopyFrom kShuffleCases (kTarget : K -> target A St) (knear kold : K -> K -> Prop) p root cases fuel g g' n s :
  lockstep T T near holds ->
  (forall k k', kold k k' -> knear (kCopyFrom k) (kCopyFrom k')) -> (forall k k', knear k k' -> kold k k') ->
  (forall d l k k', knear k k' -> follows knear (kShuffleCases d l k) (kShuffleCases d l k')) ->
  (forall k k', knear k k' -> lockstep (kTarget k) (kTarget k') near holds) ->
  same_start near kold g g' ->
  Grow A St T predict rnd K kCopyFrom kShuffleCases kTarget fuel p root cases g = Ok (n, s) ->
  exists s', Grow A St T predict rnd K kCopyFrom kShuffleCases kTarget fuel p root cases g' = Ok (n, s') /\ same_start near kold s s'.
Proof.
  intros Hlk Hc Ho Hs Hk (G1 & G2 & G3 & G4 & G5 & G6 & G7 & G8 & G9) E.
  destruct (grow_near A St St T T near holds Hlk predict predict (fun a b => a = b)) with
    (rnd := rnd) (kCopyFrom := kCopyFrom) (kCopyFrom' := kCopyFrom) (kShuffleCases := kShuffleCases) (kShuffleCases' := kShuffleCases)
    (kTarget := kTarget) (kTarget' := kTarget) (knear := knear) (kold := kold) (p := p) (fuel := fuel) (n := root) (n' := root) (cases := cases) (depth := 0) (ncb := 0)
    (g := g) (g' := g') (a := (n, s)) as ([n' s'] & E' & Hn & H1 & H2 & (A1 & A2 & A3 & A4) & H4 & H5 & H6); auto.
  - intros l. apply follows_refl.
  - unfold gnear, alnear. auto 12.
  - apply same_but_refl.
  - cbn [fst snd] in *. apply same_but_eq in Hn; [|auto]. subst n'. exists s'. split; [exact E'|]. unfold same_start. auto 15.
Qed.
Lemma leftover_same A St (T : target A St) near holds predict rnd K kCopyFrom kShuffleCases (kTarget : K -> target A St) (knear kold : K -> K -> Prop) p root cases fuel g g' :
  lockstep T T near holds -> (forall s s', near s s' -> near s' s) -> (forall k k', kold k k' -> kold k' k) ->
  (forall k k', kold k k' -> knear (kCopyFrom k) (kCopyFrom k')) -> (forall k k', knear k k' -> kold k k') ->
  (forall d l k k', knear k k' -> follows knear (kShuffleCases d l k) (kShuffleCases d l k')) ->
  (forall k k', knear k k' -> lockstep (kTarget k) (kTarget k') near holds) ->
  same_start near kold g g' ->
  let run := Grow A St T predict rnd K kCopyFrom kShuffleCases kTarget fuel p root cases in
  same_tree (run g) (run g') /\ (forall n s n' s', run g = Ok (n, s) -> run g' = Ok (n', s') -> same_start near kold s s').
Proof.
  intros Hlk Sn Sk Hc Ho Hs Hk Hg run.
  pose proof (fun n s => leftover_follows A St T near holds predict rnd K kCopyFrom kShuffleCases kTarget knear kold p root cases fuel g g' n s Hlk Hc Ho Hs Hk Hg) as F.
  assert (Hg' : same_start near kold g' g).
  { destruct Hg as (G1 & G2 & G3 & G4 & G5 & G6 & G7 & G8 & G9). unfold same_start. auto 15. }
  pose proof (fun n s => leftover_follows A St T near holds predict rnd K kCopyFrom kShuffleCases kTarget knear kold p root cases fuel g' g n s Hlk Hc Ho Hs Hk Hg') as B.
  fold run in F, B. unfold same_tree. split.
  - destruct (run g) as [[n s]| |] eqn:E.
    + destruct (F n s eq_refl) as (s' & -> & (H1 & H2 & H3 & H4 & _ & _ & H5 & _)). auto 10.
    + destruct (run g') as [[n s]| |]; auto. destruct (B n s eq_refl) as (s' & E' & _). discriminate.
    + destruct (run g') as [[n s]| |]; auto. destruct (B n s eq_refl) as (s' & E' & _). discriminate.
  - intros n s n' s' E E'. destruct (F n s E) as (s1 & E1 & H). rewrite E' in E1. injection E1 as _ <-. exact H.
Qed.

(** *** Classification *)
(** The impurities over counts of classes: Gini, entropy, regret, Neyman-Pearson, weighted, the
    two of AdaBoost, and entropy with disutility. *)
Definition classifying (A : arith) (F : list nat -> target A cst) : Prop :=
  F = gini_target A \/
  (exists nlog costs, F = fun data => counting_target A (DEntropyImpurity A nlog data) (UpdateSImp A data (DEntropyFromCounts A nlog costs))) \/
  (exists nlog costs weights cweights posi alpha kappa, forall data, exists imp from,
     In (imp, from) (counting_targets A nlog data costs weights cweights posi alpha kappa) /\ F data = counting_target A imp (UpdateSImp A data from)).
Lemma classifying_forgets A F data : classifying A F -> lockstep (F data) (F data) csize cequal.
Proof.
  intros [->|[(nlog & costs & ->)|(nlog & costs & weights & cweights & posi & alpha & kappa & H)]].
  - apply gini_forgets.
  - apply dentropy_forgets.
  - destruct (H data) as (imp & from & Hin & ->). exact (others_forget _ _ _ _ _ _ _ _ _ _ _ Hin).
Qed.
(** What is left of the contrast: a column as long as the target. *)
Definition fits (tf k : catF) : Prop := length (cData k) = length (cData tf) /\ length (cMissing k) = length (cMissing tf).
Definition cold (tf k k' : catF) : Prop := fits tf k /\ fits tf k'.
Definition cknear (tf k k' : catF) : Prop := cold tf k k' /\ cData k = cData k' /\ cMissing k = cMissing k'.
Lemma contrast_copied tf k k' : cold tf k k' -> cknear tf (cCopyInTo tf k) (cCopyInTo tf k').
Proof.
  intros [[H1 H2] [H3 H4]]. unfold cknear, cold, fits. rewrite !copy_data, !copy_missing by assumption. auto.
Qed.
Lemma contrast_shuffled tf d l k k' : cknear tf k k' -> follows (cknear tf) (cShuffleCases d l k) (cShuffleCases d l k').
Proof.
  intros [[[H1 H2] [H3 H4]] [E1 E2]] x E. unfold cShuffleCases in *. rewrite <- E1, <- E2. apply bind_ok in E as ([ms v] & E & Ex). injection Ex as <-. rewrite E. cbn [bind].
  pose proof (shuffleCases_length _ _ _ _ _ E) as [L1 L2]. cbn [fst snd] in *. eexists. split; [reflexivity|]. unfold cknear, cold, fits. cbn. repeat split; congruence.
Qed.
(** Two states that differ in what is left in memory: the values and codes of the last column
    that was searched, the counts of the target and the contrast. *)
Definition remembers {A : arith} {St : Type} (near : St -> St -> Prop) (tf : catF) (g g' : gstate A St catF) : Prop :=
  gCans g = gCans g' /\ gOob g = gOob g' /\ gImp g = gImp g' /\ gDepth g = gDepth g' /\ aDraw (gAl g) = aDraw (gAl g') /\
  length (aVals (gAl g)) = length (aVals (gAl g')) /\ length (aCat (gAl g)) = length (aCat (gAl g')) /\
  near (aTgt (gAl g)) (aTgt (gAl g')) /\ fits tf (gK g) /\ fits tf (gK g').
Lemma remembers_start {A : arith} {St} near tf (g g' : gstate A St catF) : remembers near tf g g' <-> same_start near (cold tf) g g'.
Proof. unfold remembers, same_start, cold. tauto. Qed.
Lemma csize_sym s s' : csize s s' -> csize s' s.
Proof. unfold csize, ksize. intuition congruence. Qed.
Lemma ksize_sym s s' : ksize s s' -> ksize s' s.
Proof. unfold ksize. intuition congruence. Qed.
Lemma classification_same A (F FK : list nat -> target A cst) tf predict rnd p root cases fuel g g' :
  classifying A F -> classifying A FK -> remembers csize tf g g' ->
  let run := Grow A cst (F (cData tf)) predict rnd catF (cCopyInTo tf) cShuffleCases (fun k => FK (cData k)) fuel p root cases in
  same_tree (run g) (run g') /\ (forall n s n' s', run g = Ok (n, s) -> run g' = Ok (n', s') -> remembers csize tf s s').
Proof.
  intros HF HK Hg. apply remembers_start in Hg.
  edestruct (leftover_same A cst (F (cData tf)) csize cequal predict rnd catF (cCopyInTo tf) cShuffleCases (fun k => FK (cData k)) (cknear tf) (cold tf) p root cases fuel g g') as [H1 H2].
  - apply classifying_forgets. exact HF.
  - exact csize_sym.
  - unfold cold. tauto.
  - apply contrast_copied.
  - unfold cknear. tauto.
  - intros. apply contrast_shuffled. assumption.
  - intros k k' (_ & E & _). rewrite <- E. apply classifying_forgets. exact HK.
  - exact Hg.
  - split; [exact H1|]. intros n s n' s' E E'. apply remembers_start. exact (H2 _ _ _ _ E E').
Qed.
(** Any arithmetic, any of the targets; the contrast of -vet may have another impurity than the
    target ([F] and [FK]: splitallocations.go:69 copies the plain feature). *)
Theorem C133_classification : forall A (F FK : list nat -> target A cst) tf predict rnd p root cases fuel g g',
  classifying A F -> classifying A FK -> remembers csize tf g g' ->
  let run := Grow A cst (F (cData tf)) predict rnd catF (cCopyInTo tf) cShuffleCases (fun k => FK (cData k)) fuel p root cases in
  same_tree (run g) (run g').
Proof. intros. apply classification_same; assumption. Qed.
Print Assumptions C133_classification.
(** The Hellinger distance. *)
Theorem C133_hellinger : forall A tf predict rnd p root cases fuel g g',
  remembers ksize tf g g' ->
  let run := Grow A counters (hdist_target A (cData tf)) predict rnd catF (cCopyInTo tf) cShuffleCases (fun k => hdist_target A (cData k)) fuel p root cases in
  same_tree (run g) (run g').
Proof.
  intros A tf predict rnd p root cases fuel g g' Hg. apply remembers_start in Hg.
  apply (leftover_same A counters (hdist_target A (cData tf)) ksize kequal) with (knear := cknear tf) (kold := cold tf); auto.
  - apply hdist_forgets.
  - exact ksize_sym.
  - unfold cold. tauto.
  - apply contrast_copied.
  - unfold cknear. tauto.
  - intros. apply contrast_shuffled. assumption.
  - intros k k' (_ & E & _). rewrite <- E. apply hdist_forgets.
Qed.
Print Assumptions C133_hellinger.

(** *** Regression: nothing is asked of the sums that are left. *)
Definition nfits (tf k : numF) : Prop := length (nData k) = length (nData tf) /\ length (nMissing k) = length (nMissing tf).
Definition nold (tf k k' : numF) : Prop := nfits tf k /\ nfits tf k'.
Definition nknear (tf k k' : numF) : Prop := nold tf k k' /\ nData k = nData k' /\ nMissing k = nMissing k'.
Lemma ncopy_data (k tf : numF) : length (nData k) = length (nData tf) -> nData (nCopyInTo tf k) = nData tf.
Proof. intros H. cbn. unfold copyinto. rewrite H, firstn_all, skipn_all2 by lia. apply app_nil_r. Qed.
Lemma ncopy_missing (k tf : numF) : length (nMissing k) = length (nMissing tf) -> nMissing (nCopyInTo tf k) = nMissing tf.
Proof. intros H. cbn. unfold copyinto. rewrite H, firstn_all, skipn_all2 by lia. apply app_nil_r. Qed.
Lemma ncontrast_copied tf k k' : nold tf k k' -> nknear tf (nCopyInTo tf k) (nCopyInTo tf k').
Proof.
  intros [[H1 H2] [H3 H4]]. unfold nknear, nold, nfits. rewrite !ncopy_data, !ncopy_missing by assumption. auto.
Qed.
Lemma ncontrast_shuffled tf d l k k' : nknear tf k k' -> follows (nknear tf) (nShuffleCases d l k) (nShuffleCases d l k').
Proof.
  intros [[[H1 H2] [H3 H4]] [E1 E2]] x E. unfold nShuffleCases in *. rewrite <- E1, <- E2. apply bind_ok in E as ([ms v] & E & Ex). injection Ex as <-. rewrite E. cbn [bind].
  pose proof (shuffleCases_length _ _ _ _ _ E) as [L1 L2]. cbn [fst snd] in *. eexists. split; [reflexivity|]. unfold nknear, nold, nfits. cbn. repeat split; congruence.
Qed.
Definition nremembers {St : Type} (tf : numF) (g g' : gstate F64 St numF) : Prop :=
  gCans g = gCans g' /\ gOob g = gOob g' /\ gImp g = gImp g' /\ gDepth g = gDepth g' /\ aDraw (gAl g) = aDraw (gAl g') /\
  length (aVals (gAl g)) = length (aVals (gAl g')) /\ length (aCat (gAl g)) = length (aCat (gAl g')) /\ nfits tf (gK g) /\ nfits tf (gK g').
(** Squared error, gradient boosting, and the targets without memory of their own (L1, ordinal,
    AdaBoost for regression, density): [imp] is the impurity for given data and missing flags. *)
Inductive regressing : forall St, (numF -> target F64 St) -> Prop :=
| RSquares : regressing (sums F64) (fun k => num_target F64 (nData k))
| RGradient : regressing (F64 * F64)%type (fun k => grad_target F64 (nData k))
| RPlain imp : regressing unit (fun k => plain_target F64 (imp (nData k) (nMissing k))).
Lemma regression_same St (F : numF -> target F64 St) tf predict rnd p root cases fuel g g' : regressing St F -> nremembers tf g g' ->
  let run := Grow F64 St (F tf) predict rnd numF (nCopyInTo tf) nShuffleCases F fuel p root cases in
  same_tree (run g) (run g') /\ (forall n s n' s', run g = Ok (n, s) -> run g' = Ok (n', s') -> nremembers tf s s').
Proof.
  intros HF Hg.
  assert (exists holds, forall k k', nData k = nData k' -> nMissing k = nMissing k' -> lockstep (F k) (F k') always holds) as [holds Hlk].
  { destruct HF; eexists; intros k k' E1 E2; rewrite <- E1; [apply num_forgets|apply grad_forgets|rewrite <- E2; apply plain_forgets]. }
  edestruct (leftover_same F64 St (F tf) always holds predict rnd numF (nCopyInTo tf) nShuffleCases F (nknear tf) (nold tf) p root cases fuel g g') as [H1 H2]; auto.
  - unfold nold. tauto.
  - apply ncontrast_copied.
  - unfold nknear. tauto.
  - intros. apply ncontrast_shuffled. assumption.
  - intros k k' (_ & E1 & E2). auto.
  - unfold nremembers in Hg. unfold same_start, nold, always. tauto.
  - split; [exact H1|]. intros n s n' s' E E'. pose proof (H2 _ _ _ _ E E') as H. unfold same_start, nold in H. unfold nremembers. tauto.
Qed.
Theorem C133_regression : forall St (F : numF -> target F64 St) tf predict rnd p root cases fuel g g',
  regressing St F -> nremembers tf g g' ->
  let run := Grow F64 St (F tf) predict rnd numF (nCopyInTo tf) nShuffleCases F fuel p root cases in
  same_tree (run g) (run g').
Proof. intros. apply regression_same; assumption. Qed.
Print Assumptions C133_regression.

(** *** A goroutine that grows one tree after the other *)
(** growforest/growforest.go:593-680: [jobs] are the cases of each tree and its out of bag cases;
    candidates, importances, random draws and memory are carried on, the depths are cleared
    after each tree (growforest.go:671-678), and each tree grows into the nodes of the last one. *)
Definition cleared_depths {A : arith} {St K : Type} (g : gstate A St K) : gstate A St K :=
  mkG A St K (gCans g) (gOob g) (gAl g) (gK g) (gImp g) (option_map (map (fun _ => 0)) (gDepth g)).
Section Worker.
  Variable A : arith.
  Variables St K : Type.
  Variable grow : node -> list nat -> gstate A St K -> res (node * gstate A St K).
  Fixpoint worker (jobs : list (list nat * list nat)) (tree : node) (g : gstate A St K) : res (list (node * option (list nat)) * gstate A St K) :=
    match jobs with
    | [] => Ok ([], g)
    | (cases, oob) :: jobs =>
        let* (tree, g) := grow tree cases (with_oob g oob) in
        let* (trees, g') := worker jobs tree (cleared_depths g) in
        Ok ((tree, gDepth g) :: trees, g')
    end.
  (** One that starts each tree from a new root, and in memory that [wipe] has overwritten. *)
  Variable wipe : nat -> gstate A St K -> gstate A St K.
  Fixpoint clean_worker (i : nat) (jobs : list (list nat * list nat)) (g : gstate A St K) : res (list (node * option (list nat)) * gstate A St K) :=
    match jobs with
    | [] => Ok ([], g)
    | (cases, oob) :: jobs =>
        let* (tree, g) := grow newNode cases (with_oob (wipe i g) oob) in
        let* (trees, g') := clean_worker (S i) jobs (cleared_depths g) in
        Ok ((tree, gDepth g) :: trees, g')
    end.
End Worker.
(** The trees as they are used (C41: nothing below a leaf), the depths at which features were
    used, the candidates, the importances and the random draws are the same. *)
Definition same_forest {A : arith} {St K : Type} (r r' : res (list (node * option (list nat)) * gstate A St K)) : Prop :=
  match r, r' with
  | Ok (ts, s), Ok (ts', s') =>
      map (fun t => (prune (fst t), snd t)) ts = map (fun t => (prune (fst t), snd t)) ts' /\ gCans s = gCans s' /\ gImp s = gImp s' /\ aDraw (gAl s) = aDraw (gAl s')
  | Ok _, _ => False
  | _, Ok _ => False
  | _, _ => True
  end.
Lemma grown_root A St (T : target A St) predict rnd K kC kS kT p fuel : forall n cases depth ncb g n' g',
  grow_node A St T predict rnd K kC kS kT fuel p n cases depth ncb g = Ok (n', g') ->
  n' <> Nil /\ (pSplitMissing p = false -> no_missing n -> no_missing n').
Proof.
  induction fuel as [|fuel IH]; intros n cases depth ncb g n' g' E; [discriminate|]. cbn [grow_node] in E. destruct n as [|d l r m]; [discriminate|].
  apply bind_ok in E as ([v g1] & Ev & E).
  assert (V : pSplitMissing p = false -> no_missing (Node d l r m) -> no_missing (gvL v) /\ no_missing (gvR v) /\ gvM v = Nil).
  { intros Sm (M1 & M2 & M3). unfold grow_visit in Ev.
    assert (L : forall fi nc cs gg, (let* pred := predict cs in Ok (mkV (mkNd CNil (dFeat d) pred None) l r m fi CNil nc cs, gg)) = Ok (v, g1) -> gvL v = l /\ gvR v = r /\ gvM v = m).
    { intros fi nc cs gg E1. apply bind_ok in E1 as (pr & _ & E1). injection E1 as <- _. auto. }
    destruct (_ && _).
    - apply bind_ok in Ev as (b & _ & Ev). destruct (isCNil (bCode b)).
      + destruct (L _ _ _ _ Ev) as (-> & -> & ->). auto.
      + apply bind_ok in Ev as ([imp du] & _ & Ev). apply bind_ok in Ev as (f & _ & Ev). apply bind_ok in Ev as (spl & _ & Ev). injection Ev as <- _. cbn [gvL gvR gvM].
        rewrite Sm. destruct (isNil l || isNil r); cbn; auto.
    - destruct (L _ _ _ _ Ev) as (-> & -> & ->). auto. }
  destruct (isCNil (gvSplit v)).
  - injection E as <- _. split; [discriminate|]. intros Sm Nm. destruct (V Sm Nm) as (V1 & V2 & V3). cbn. auto.
  - apply bind_ok in E as (f & _ & E). apply bind_ok in E as ([[cs li] ri] & _ & E). apply bind_ok in E as (lc & _ & E). apply bind_ok in E as ([l1 g2] & E1 & E).
    apply bind_ok in E as (rc & _ & E). apply bind_ok in E as ([r1 g3] & E2 & E). apply bind_ok in E as ([m1 g4] & E3 & E). injection E as <- _. split; [discriminate|].
    intros Sm Nm. destruct (V Sm Nm) as (V1 & V2 & V3). rewrite V3 in E3. cbn [isNil negb] in E3. rewrite andb_false_r in E3. injection E3 as <- _.
    cbn. split; [reflexivity|]. split; [exact (proj2 (IH _ _ _ _ _ _ _ E1) Sm V1)|exact (proj2 (IH _ _ _ _ _ _ _ E2) Sm V2)].
Qed.
Lemma worker_same A St (T : target A St) predict rnd K kC kS kT p fuel wipe (R : gstate A St K -> gstate A St K -> Prop) :
  let grow n cases g := Grow A St T predict rnd K kC kS kT fuel p n cases g in
  (forall g g', R g g' -> gCans g = gCans g' /\ gImp g = gImp g' /\ gDepth g = gDepth g' /\ aDraw (gAl g) = aDraw (gAl g')) ->
  (forall n cases g g', R g g' -> same_tree (grow n cases g) (grow n cases g') /\ forall m s m' s', grow n cases g = Ok (m, s) -> grow n cases g' = Ok (m', s') -> R s s') ->
  (forall g g' oob, R g g' -> R (with_oob g oob) (with_oob g' oob)) -> (forall g g', R g g' -> R (cleared_depths g) (cleared_depths g')) ->
  (forall i g g', R g g' -> R g (wipe i g')) ->
  forall jobs tree g g' i, tree <> Nil -> (pSplitMissing p = false -> no_missing tree) -> R g g' ->
  same_forest (worker A St K grow jobs tree g) (clean_worker A St K grow wipe i jobs g').
Proof.
  intros grow Rs Rg Ro Rd Rw. induction jobs as [|[cases oob] jobs IH]; intros tree g g' i Hn Hm Hg; cbn [worker clean_worker].
  { unfold same_forest. apply Rs in Hg. intuition. }
  pose proof (Ro _ _ oob (Rw i _ _ Hg)) as Hg'.
  pose proof (C41_same_up_to_stale_nodes_partial A St T predict rnd K kC kS kT p tree cases (with_oob g oob) fuel Hn Hm) as P.
  destruct (Rg newNode cases _ _ Hg') as [H1 H2].
  fold (grow newNode cases (with_oob g oob)) in P. fold (grow tree cases (with_oob g oob)) in P.
  destruct (grow tree cases (with_oob g oob)) as [[n1 s1]| |] eqn:E1, (grow newNode cases (with_oob g oob)) as [[n2 s2]| |] eqn:E2; cbn in P; try discriminate P;
  destruct (grow newNode cases (with_oob (wipe i g') oob)) as [[n3 s3]| |] eqn:E3; cbn in H1; try contradiction; cbn [bind]; try exact I.
  injection P as P1 <-. destruct H1 as (<- & H1). pose proof (H2 _ _ _ _ eq_refl eq_refl) as Hs.
  unfold grow, Grow in E1. apply grown_root in E1 as [N1 N2].
  specialize (IH n1 (cleared_depths s1) (cleared_depths s3) (S i) N1 (fun Sm => N2 Sm (Hm Sm)) (Rd _ _ Hs)). unfold same_forest in *.
  destruct (worker A St K grow jobs n1 (cleared_depths s1)) as [[ts s]| |], (clean_worker A St K grow wipe (S i) jobs (cleared_depths s3)) as [[ts' s']| |]; cbn [bind] in *; try contradiction; try exact I.
  destruct IH as (IH1 & IH2). split; [|exact IH2]. cbn [map fst snd]. rewrite P1, IH1. f_equal. f_equal. apply Rs in Hs. apply Hs.
Qed.
(** [wipe] may write anything, as long as it keeps the sizes. *)
Theorem C133_worker : forall A (F FK : list nat -> target A cst) tf predict rnd p fuel wipe jobs tree g,
  classifying A F -> classifying A FK -> tree <> Nil -> (pSplitMissing p = false -> no_missing tree) -> fits tf (gK g) ->
  (forall i s, fits tf (gK s) -> remembers csize tf s (wipe i s)) ->
  let grow n cases g := Grow A cst (F (cData tf)) predict rnd catF (cCopyInTo tf) cShuffleCases (fun k => FK (cData k)) fuel p n cases g in
  same_forest (worker A cst catF grow jobs tree g) (clean_worker A cst catF grow wipe 0 jobs g).
Proof.
  intros A F FK tf predict rnd p fuel wipe jobs tree g HF HK Hn Hm Hfit Hw grow. unfold grow.
  apply worker_same with (R := remembers csize tf); auto.
  - unfold remembers. tauto.
  - intros n cases g1 g2 H. apply classification_same; assumption.
  - intros g1 g2 oob H. unfold remembers, with_oob in *. cbn [gCans gOob gAl gK gImp gDepth]. intuition congruence.
  - intros g1 g2 H. unfold remembers, cleared_depths in *. cbn [gCans gOob gAl gK gImp gDepth]. intuition congruence.
  - intros i g1 g2 H. pose proof (Hw i g2 ltac:(apply H)) as H'. unfold remembers, csize, ksize in *. intuition congruence.
  - unfold remembers, csize, ksize. auto 20.
Qed.
Print Assumptions C133_worker.
Theorem C133_worker_regression : forall St (F : numF -> target F64 St) tf predict rnd p fuel wipe jobs tree g,
  regressing St F -> tree <> Nil -> (pSplitMissing p = false -> no_missing tree) -> nfits tf (gK g) ->
  (forall i s, nfits tf (gK s) -> nremembers tf s (wipe i s)) ->
  let grow n cases g := Grow F64 St (F tf) predict rnd numF (nCopyInTo tf) nShuffleCases F fuel p n cases g in
  same_forest (worker F64 St numF grow jobs tree g) (clean_worker F64 St numF grow wipe 0 jobs g).
Proof.
  intros St F tf predict rnd p fuel wipe jobs tree g HF Hn Hm Hfit Hw grow. unfold grow.
  apply worker_same with (R := nremembers tf); auto.
  - unfold nremembers. tauto.
  - intros n cases g1 g2 H. apply regression_same; assumption.
  - intros g1 g2 oob H. unfold nremembers, with_oob in *. cbn [gCans gOob gAl gK gImp gDepth]. intuition congruence.
  - intros g1 g2 H. unfold nremembers, cleared_depths in *. cbn [gCans gOob gAl gK gImp gDepth]. intuition congruence.
  - intros i g1 g2 H. pose proof (Hw i g2 ltac:(apply H)) as H'. unfold nremembers in *. intuition congruence.
  - unfold nremembers. auto 20.
Qed.
Print Assumptions C133_worker_regression.

(** *** What does have an influence: the order in which the last tree left the candidates.  The
    same cases and the same draws give another tree to a goroutine that has grown one before. *)
Definition order_p : params :=
  mkP [FNum (PropSearch.plain (map f_of_Z [0; 1; 1; 1]%Z)); FNum (PropSearch.plain (map f_of_Z [0; 0; 1; 1]%Z))] 1 1 false false false false 1 false.
Definition order_t : catF := PropCatSearch.cats ["a"; "b"] [0; 0; 1; 1] false.
Definition order_g : gstate F64 cst catF := mkG F64 cst catF [0; 1] [] (PropSearch.fresh 4) (cCopy order_t) None None.
Definition order_grow (n : node) (cases : list nat) (g : gstate F64 cst catF) : res (node * gstate F64 cst catF) :=
  Grow F64 cst (gini_target F64 (cData order_t)) (cFindPredicted order_t) (fun _ => 1) catF (cCopyInTo order_t) cShuffleCases (fun k => gini_target F64 (cData k)) 9 order_p n cases g.
Definition root_of (n : node) : option nat := match n with Node d _ _ _ => Some (dFeat d) | Nil => None end.
Lemma order_first : root_feature (order_grow newNode [0; 1; 2; 3] order_g) = Some 1.
Proof. vm_compute. reflexivity. Qed.
Lemma order_second : (match order_grow newNode [0; 1; 2; 3] order_g with Ok (_, s) => root_feature (order_grow newNode [0; 1; 2; 3] s) | _ => None end) = Some 0.
Proof. vm_compute. reflexivity. Qed.
Theorem C133_candidates_refuted :
  exists rnd tf p cases g n s,
    (forall i j : nat, rnd i = rnd j) /\ fits tf (gK g) /\
    let grow := Grow F64 cst (gini_target F64 (cData tf)) (cFindPredicted tf) rnd catF (cCopyInTo tf) cShuffleCases (fun k => gini_target F64 (cData k)) 9 p newNode cases in
    grow g = Ok (n, s) /\ root_feature (grow g) = Some 1 /\ root_feature (grow s) = Some 0.
Proof.
  pose proof order_first as H1. pose proof order_second as H2. unfold order_grow in *.
  destruct (Grow F64 cst (gini_target F64 (cData order_t)) (cFindPredicted order_t) (fun _ => 1) catF (cCopyInTo order_t) cShuffleCases (fun k => gini_target F64 (cData k)) 9 order_p newNode [0; 1; 2; 3] order_g)
    as [[n s]| |] eqn:E; [|discriminate H2..].
  exists (fun _ => 1), order_t, order_p, [0; 1; 2; 3], order_g, n, s. split; [reflexivity|]. split; [split; reflexivity|]. cbv zeta. rewrite E. split; [reflexivity|]. split; assumption.
Qed.
Print Assumptions C133_candidates_refuted.

(** A case that meets the hypotheses: memory full of other numbers, counts that were never
    cleared and a contrast of other classes; with -vet the tree is the same. *)
Definition vet_p : params :=
  mkP [FNum (PropSearch.plain (map f_of_Z [0; 1; 1; 1]%Z)); FNum (PropSearch.plain (map f_of_Z [0; 0; 1; 1]%Z))] 2 1 false true false false 0 false.
Definition dirty_g : gstate F64 cst catF :=
  mkG F64 cst catF [0; 1] [] (mkAl (map f_of_Z [7; 5; 3; 9]%Z) [4; 4; 4; 4]%Z ([5; 6]%Z, mkK [1; 2]%Z [3; 4]%Z [8; 8]%Z) 0)
    (PropCatSearch.cats ["a"; "b"] [1; 1; 1; 1] true) None None.
Example C133_ex :
  classifying F64 (gini_target F64) /\ remembers csize order_t order_g dirty_g /\
  let grow g := Grow F64 cst (gini_target F64 (cData order_t)) (cFindPredicted order_t) (fun i => i mod 2) catF (cCopyInTo order_t) cShuffleCases (fun k => gini_target F64 (cData k)) 9 vet_p newNode [0; 1; 2; 3] g in
  root_feature (grow order_g) = Some 1 /\ root_feature (grow dirty_g) = Some 1.
Proof. split; [left; reflexivity|]. split; [unfold remembers, csize, ksize, fits; cbn; auto 20|]. split; vm_compute; reflexivity. Qed.
(** A goroutine with two trees, the second grown into the first. *)
Example C133_worker_ex :
  (match worker F64 cst catF order_grow [([0; 1; 2; 3], []); ([3; 2; 1; 0], [0; 1])] newNode order_g with Ok (ts, _) => map (fun t => root_of (fst t)) ts | _ => [] end) = [Some 1; Some 0] /\
  (forall s, fits order_t (gK s) -> remembers csize order_t s (mkG F64 cst catF (gCans s) (gOob s) (mkAl (map (fun _ => f_of_Z 3) (aVals (gAl s))) (aCat (gAl s)) (aTgt (gAl s)) (aDraw (gAl s))) (gK s) (gImp s) (gDepth s))).
Proof.
  split; [vm_compute; reflexivity|].
  intros s H. unfold remembers, csize, ksize. cbn [gCans gOob gAl gK gImp gDepth aVals aCat aTgt aDraw]. rewrite map_length. auto 20.
Qed.
