(** GrowRandomForest (forrest.go) for gradient boosting targets, and the same loop with any
    way of choosing the cases of a tree (growforest/growforest.go). *)
From Verif Require Import Go F64 ModelFeature ModelSplit ModelSample ModelSearch ModelBallot ModelTree ModelGrow ModelImpurity
  ModelTargets ModelBoost.
Local Open Scope string_scope.
Local Open Scope nat_scope.
Local Open Scope list_scope.

Section Forest.
  Variable A : arith.
  (** strconv.ParseFloat(s, 64), [None] when it reports an error *)
  Variable PF : string -> option A.
  (** fmt.Sprintf("%v", x) *)
  Variable fmtF : A -> string.

  (** splitallocations.go:9-33 BestSplitAllocs: Lsum and Rsum of GradBoostTarget are the
      fields used by the squared error.  gradboosttarget.go:64-115 as [grad_target] of
      ModelTargets.v, on these fields. *)
  Definition boost_target (data : list A) : target A (sums A) :=
    mkTarget
      (fun cases s => let* (e, _) := tImp (grad_target A data) cases (sLs A s, sRs A s) in Ok (e, s))
      (fun l r m s => let* (e, (ls, rs)) := tSplit (grad_target A data) l r m (sLs A s, sRs A s) in
                      Ok (e, mkSums A ls (sLq A s) rs (sRq A s) (sMs A s) (sMq A s)))
      (fun l r m moved s => let* (e, (ls, rs)) := tUpdate (grad_target A data) l r m moved (sLs A s, sRs A s) in
                      Ok (e, mkSums A ls (sLq A s) rs (sRq A s) (sMs A s) (sMq A s))).

  (** gradboosttarget.go:10-14 embeds the feature, so FindPredicted is that of
      densenumfeature.go:583-590: the mean of the residuals, as text. *)
  Definition gbFindPredicted (gb : gradboost A) (cases : list nat) : res string :=
    let* m := NumMean A (ncData A (gbF A gb)) (ncMissing A (gbF A gb)) cases in Ok (fmtF m).

  (** densenumfeature.go:658-661 CopyInTo: the contrast target takes the residuals. *)
  Definition gbCopyInTo (gb : gradboost A) (k : numcol A) : numcol A :=
    mkNC A (copyinto (ncData A k) (ncData A (gbF A gb))) (copyinto (ncMissing A k) (ncMissing A (gbF A gb))).
  (** densenumfeature.go:611-628 ShuffleCases *)
  Definition ncShuffleCases (rnd : nat -> nat) (cases : list nat) (k : numcol A) : res (numcol A) :=
    let* (ms, d) := shuffleCases rnd cases (ncMissing A k) (ncData A k) in Ok (mkNC A d ms).

  (** forrest.go:56-67 and growforest/growforest.go:664-680: one tree is grown on [cases],
      all the cases are sent down the tree, the target is boosted and the tree gets the
      weight.  The feature of the residuals is not among the candidates, so the matrix
      itself stays as it is.  [rnd] is allocs.Rnd while the tree grows.  The contrast
      target is a DenseNumFeature (splitallocations.go:69, the copy of the embedded
      feature), so its scores are squared errors.  Fuel: a tree is not deeper than it has cases. *)
  Definition boost_round (fm : fmatrix) (p : params) (rnd : nat -> nat) (cases : list nat)
      (gb : gradboost A) (g : gstate A (sums A) (numcol A)) : res (node * A * gradboost A * gstate A (sums A) (numcol A)) :=
    let* (t, g) := Grow A (sums A) (boost_target (ncData A (gbF A gb))) (gbFindPredicted gb) rnd (numcol A)
                     (gbCopyInTo gb) ncShuffleCases (fun k => num_target A (ncData A k))
                     (S (length cases)) p newNode cases g in
    let* (arr, (leaves, preds)) := TreePartition fm t in
    let* (gb, w) := gbBoost A PF arr leaves preds gb in
    Ok (t, w, gb, g).

  (** forrest.go:53-68: the trees with their weights, the target and the scratch space
      after [nTrees] trees; [sample] chooses the cases of each tree. *)
  Definition boosted_trees (fm : fmatrix) (p : params) (sample : nat -> res (list nat)) (rnd : nat -> nat -> nat)
      (nTrees : nat) (gb : gradboost A) (g : gstate A (sums A) (numcol A))
    : res (list (node * A) * gradboost A * gstate A (sums A) (numcol A)) :=
    for_up nTrees 0 (fun i '((ts, gb, g) : list (node * A) * gradboost A * gstate A (sums A) (numcol A)) =>
      let* cases := sample i in
      let* (t, w, gb, g) := boost_round fm p (rnd i) cases gb g in
      Ok (ts ++ [(t, w)], gb, g)) ([], gb, g).

  (** forrest.go:35-69 GrowRandomForest for a gradient boosting target: the trees with
      their weights, the intercept and the target afterwards.  [draw i] are the draws of
      SampleWithReplacment for tree [i]; depthUsed is nil and evaluation of splits on a
      random subset is off. *)
  Definition GrowRandomForest (fm : fmatrix) (p : params) (draw rnd : nat -> nat -> nat) (nSamples nTrees : nat)
      (gb : gradboost A) (cans : list nat) (al : allocs (sums A)) (imp : option (list (rmean A)))
    : res (list (node * A) * A * gradboost A) :=
    let* (ts, gb', _) := boosted_trees fm p
      (fun i => let* f := get (fmData fm) 0 in SampleWithReplacment (draw i) nSamples (fLength f))
      rnd nTrees gb (mkG A (sums A) (numcol A) cans [] al (gbF A gb) imp None) in
    Ok (ts, gbIntercept A gb, gb').

  (** ** Two classes *)
  (** Expit of gradboostclasstarget.go:12-19, or any function *)
  Variable expit : A -> A.

  (** gradboostclasstarget.go:103-107 FindPredicted *)
  Definition gcFindPredicted (gc : gbclass A) (cases : list nat) : res string :=
    let* x := gcPredicted A cases gc in Ok (fmtF x).
  (** densenumfeature.go:658-661 CopyInTo, on the embedded residuals *)
  Definition gcCopyInTo (gc : gbclass A) (k : numcol A) : numcol A :=
    mkNC A (copyinto (ncData A k) (ncData A (gcRes A gc))) (copyinto (ncMissing A k) (ncMissing A (gcRes A gc))).

  (** One round as [boost_round], for a GradBoostClassTarget: it embeds a GradBoostTarget with
      the residuals (gradboostclasstarget.go:26-33), so impurities are those of the
      residuals; FindPredicted and Boost are its own. *)
  Definition class_round (fm : fmatrix) (p : params) (rnd : nat -> nat) (cases : list nat)
      (gc : gbclass A) (g : gstate A (sums A) (numcol A)) : res (node * A * gbclass A * gstate A (sums A) (numcol A)) :=
    let* (t, g) := Grow A (sums A) (boost_target (ncData A (gcRes A gc))) (gcFindPredicted gc) rnd (numcol A)
                     (gcCopyInTo gc) ncShuffleCases (fun k => num_target A (ncData A k))
                     (S (length cases)) p newNode cases g in
    let* (arr, (leaves, preds)) := TreePartition fm t in
    let* (gc, w) := gcBoost A PF expit arr leaves preds gc in
    Ok (t, w, gc, g).

  (** forrest.go:53-68 as [boosted_trees] *)
  Definition class_trees (fm : fmatrix) (p : params) (sample : nat -> res (list nat)) (rnd : nat -> nat -> nat)
      (nTrees : nat) (gc : gbclass A) (g : gstate A (sums A) (numcol A))
    : res (list (node * A) * gbclass A * gstate A (sums A) (numcol A)) :=
    for_up nTrees 0 (fun i '((ts, gc, g) : list (node * A) * gbclass A * gstate A (sums A) (numcol A)) =>
      let* cases := sample i in
      let* (t, w, gc, g) := class_round fm p (rnd i) cases gc g in
      Ok (ts ++ [(t, w)], gc, g)) ([], gc, g).

  (** forrest.go:35-69 GrowRandomForest for a GradBoostClassTarget *)
  Definition GrowRandomForestClass (fm : fmatrix) (p : params) (draw rnd : nat -> nat -> nat) (nSamples nTrees : nat)
      (gc : gbclass A) (cans : list nat) (al : allocs (sums A)) (imp : option (list (rmean A)))
    : res (list (node * A) * A * gbclass A) :=
    let* (ts, gc', _) := class_trees fm p
      (fun i => let* f := get (fmData fm) 0 in SampleWithReplacment (draw i) nSamples (fLength f))
      rnd nTrees gc (mkG A (sums A) (numcol A) cans [] al (gcRes A gc) imp None) in
    Ok (ts, gcIntercept A gc, gc').
End Forest.
