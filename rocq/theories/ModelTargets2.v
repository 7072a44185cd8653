(** The remaining targets: l1target.go, ordinaltarget.go, densitytarget.go, the density
    term of transduction.go, numadaboostingtarget.go, and the prediction of
    hdistancetarget.go.  Numerical targets are given by NumData and Missing. *)
From Verif Require Import Go F64 ModelFeature ModelImpurity ModelSearch ModelTargets.
Local Open Scope nat_scope.
Local Open Scope list_scope.

Section Targets.
  Variable A : arith.
  Local Notation zero := (nofZ A 0).
  (** math.Abs *)
  Variable nabs : A -> A.

  (** l1target.go:17-31, densitytarget.go:23-37: the SplitImpurity of the targets whose
      Impurity ignores the counter it is given. *)
  Definition split_by (imp : list nat -> res A) (l r : list nat) (m : option (list nat)) : res A :=
    let nl := len A l in
    let nr := len A r in
    let* il := imp l in
    let d := nmul A nl il in
    let* ir := imp r in
    let d := nadd A d (nmul A nr ir) in
    match has_m m with
    | Some mm =>
        let nm := len A mm in
        let* im := imp mm in
        Ok (ndiv A (nadd A d (nmul A nm im)) (nadd A (nadd A nl nr) nm))
    | None => Ok (ndiv A d (nadd A (nadd A nl nr) zero))
    end.

  (** Targets without scratch space; UpdateSImpFromAllocs calls SplitImpurity:
      l1target.go:35-37, ordinaltarget.go:56-58, densitytarget.go:41-43,
      numadaboostingtarget.go:50-52. *)
  Definition plain_target (imp : list nat -> res A) : target A unit :=
    mkTarget (fun cases s => let* e := imp cases in Ok (e, s))
             (fun l r m s => let* e := split_by imp l r m in Ok (e, s))
             (fun l r m _ s => let* e := split_by imp l r m in Ok (e, s)).

  (** ** l1target.go *)

  (** l1target.go:49-62 Error *)
  Definition L1Error (data : list A) (missing : list bool) (cases : list nat) (predicted : A) : res A :=
    let* (e, n) := foreach cases (fun i '((e, n) : A * nat) =>
      let* miss := get missing i in
      if miss then Ok (e, n)
      else let* x := get data i in Ok (nadd A e (nabs (nsub A predicted x)), n + 1)) (zero, 0) in
    Ok (ndiv A e (num A (Z.of_nat n))).

  (** l1target.go:40-45 Impurity *)
  Definition L1Impurity (data : list A) (missing : list bool) (cases : list nat) : res A :=
    let* m := NumMean A data missing cases in
    L1Error data missing cases m.

  (** ** ordinaltarget.go *)
  Section Ordinal.
    (** The conversion [int(x)] of a float64. *)
    Variable toint : A -> Z.

    (** ordinaltarget.go:21-33 NewOrdinalTarget: nClass.  Values at missing cases count too. *)
    Definition OrdClasses (data : list A) : Z :=
      (toint (fold_left (fun mx v => if nltb A mx v then v else mx) data zero) + 1)%Z.

    (** ordinaltarget.go:64-82 Mode; [make([]int, n)] panics for a negative n. *)
    Definition OrdMode (nClass : Z) (data : list A) (missing : list bool) (cases : list nat) : res A :=
      if (nClass <? 0)%Z then Panic else
      let* counts := foreach cases (fun i counts =>
        let* miss := get missing i in
        if miss then Ok counts
        else
          let* x := get data i in
          let k := toint x in
          let* c := getZ counts k in
          set counts (Z.to_nat k) (c + 1)) (repeat 0 (Z.to_nat nClass)) in
      let* (m, _, _) := foreach counts (fun v '((m, mx, k) : A * nat * nat) =>
        Ok (if mx <? v then (num A (Z.of_nat k), v, S k) else (m, mx, S k))) (zero, 0, 0) in
      Ok m.

    (** ordinaltarget.go:84-89 Impurity; Predicted (60-62) is Mode and Error is the one of
        the embedded feature. *)
    Definition OrdImpurity (nClass : Z) (data : list A) (missing : list bool) (cases : list nat) : res A :=
      let* m := OrdMode nClass data missing cases in
      NumError A data missing cases m.
  End Ordinal.

  (** ** densitytarget.go *)

  (** densitytarget.go:47-61 Impurity over the spans of the features.  The product t*t is
      taken without overflow. *)
  Definition DensImpurity (spans : list (list nat -> res A)) (N : nat) (cases : list nat) : res A :=
    let t := Z.of_nat (length cases) in
    foreach spans (fun span e => let* s := span cases in Ok (ndiv A e s))
      (ndiv A (num A (t * t)) (num A (Z.of_nat N * Z.of_nat N))).

  (** densitytarget.go:65-80 FindPredicted, before formatting *)
  Definition DensPredicted (spans : list (list nat -> res A)) (N : nat) (cases : list nat) : res A :=
    foreach spans (fun span e => let* s := span cases in Ok (ndiv A e s))
      (ndiv A (len A cases) (num A (Z.of_nat N))).

  (** ** transduction.go *)

  (** transduction.go:106-132 Density over the spans of the features that do not have the
      target's name. *)
  Definition TransDensity (spans : list (list nat -> res A)) (cases : list nat) : res A :=
    let t := Z.of_nat (length cases) in
    foreach spans (fun span e =>
      let* s := span cases in
      Ok (if nltb A zero s then nmul A e s else e))
      (ndiv A (nofZ A 1) (num A (t * t))).

  (** transduction.go:83-94 Impurity; [x == 0] is [x <= 0 && 0 <= x]. *)
  Definition TransImpurity (imp : impurity A) (spans : list (list nat -> res A)) (alpha : A) : impurity A :=
    fun cases counter =>
      let* (e, counter) := imp cases counter in
      if nleb A alpha zero && nleb A zero alpha then Ok (e, counter)
      else
        let* d := TransDensity spans cases in
        Ok (nadd A e (nmul A alpha d), counter).

  (** ** numadaboostingtarget.go *)
  Section NumAda.
    Variables nlog nexp : A -> A.

    (** numadaboostingtarget.go:55-66 Impurity; Predicted is Mean and Norm is
        densenumfeature.go:112-115. *)
    Definition NumAdaImpurity (data : list A) (missing : list bool) (weights : list A) (cases : list nat) : res A :=
      let* m := NumMean A data missing cases in
      foreach cases (fun c e =>
        let* miss := get missing c in
        if miss then Ok e
        else
          let* w := get weights c in
          let* x := get data c in
          Ok (nadd A e (nmul A w (nabs (nsub A x m))))) zero.

    (** numadaboostingtarget.go:17-27 NewNumAdaBoostTarget: Weights and NormFactor *)
    Definition NewNumAda (data : list A) (missing : list bool) : res (list A * A) :=
      let n := length missing in
      let weights := repeat (ndiv A (nofZ A 1) (nofZ A (Z.of_nat n))) n in
      let* imp := NumAdaImpurity data missing weights (seq 0 n) in
      Ok (weights, nmul A imp (nofZ A (Z.of_nat n))).

    (** numadaboostingtarget.go:80-115 Boost: the new weights and the tree weight *)
    Definition NumAdaBoost (data : list A) (missing : list bool) (norm : A)
        (leaves : list (list nat)) (weights : list A) : res (list A * A) :=
      if length leaves =? 0 then Ok (weights, zero)
      else
        let* imp := foreach leaves (fun cases imp =>
          let* e := NumAdaImpurity data missing weights cases in Ok (nadd A imp e)) zero in
        if nltb A norm imp then Ok (weights, zero)
        else
          let weight := nlog (ndiv A norm imp) in
          let* weights := foreach leaves (fun cases weights =>
            let* m := NumMean A data missing cases in
            foreach cases (fun c weights =>
              let* miss := get missing c in
              if miss then Ok weights
              else
                let* w := get weights c in
                let* x := get data c in
                set weights c (nmul A w (nexp (nmul A weight (nsub A (nabs (nsub A x m)) imp))))) weights) weights in
          let total := fold_left (nadd A) weights zero in
          Ok (map (fun v => ndiv A v total) weights, weight).
  End NumAda.

  (** ** hdistancetarget.go *)

  (** hdistancetarget.go:65-79 FindPredicted, before formatting; the numbering of the
      categories is returned because CatToNum may extend it. *)
  Definition HDistPredicted (f : catF) (pos : string) (cases : list nat) : res (A * catmap) :=
    let '(cm, t) := CatToNum (cMap f) pos in
    let* count := foreach cases (fun i count =>
      let* c := cGeti f i in Ok (if c =? t then count + 1 else count)) 0 in
    Ok (ndiv A (num A (Z.of_nat count)) (len A cases), cm).

  (** HDistanceTarget as a target: hdistancetarget.go:24-36, 83-87 (Impurity is -1). *)
  Definition hdist_target (data : list nat) : target A counters :=
    mkTarget (fun _ s => Ok (nofZ A (-1), s))
             (fun l r _ s => HDistSplit A data l r s)
             (fun _ _ _ moved s => HDistUpdate A data s moved).
End Targets.

(** ** The spans *)

(** densecatfeature.go:1081-1105 Span with a fresh counter of [k] entries *)
Definition cat_span (A : arith) (k : nat) (f : catF) (cases : list nat) : res A :=
  let* n := cSpan f cases (repeat 0 k) in Ok (nofZ A (Z.of_nat n)).

(** densitytarget.go:51-58: a categorical feature gets a counter of its own number of
    categories. *)
Definition dens_span (f : feature) (cases : list nat) : res F64 :=
  match f with
  | FCat f => cat_span F64 (NCats (cMap f)) f cases
  | FNum f => nSpan f cases
  end.
Definition density_target (fs : list feature) (N : nat) : target F64 unit :=
  plain_target F64 (DensImpurity F64 (map dens_span fs) N).

Definition fNCats (f : feature) : nat :=
  match f with FCat f => NCats (cMap f) | FNum _ => 0 end.
(** transduction.go:43-48: MaxCats *)
Definition MaxCats (fs : list feature) : nat :=
  fold_left (fun mx f => if mx <? fNCats f then fNCats f else mx) fs 0.
(** transduction.go:111-117: the counter has MaxCats entries for every feature. *)
Definition trans_span (maxcats : nat) (f : feature) (cases : list nat) : res F64 :=
  match f with
  | FCat f => cat_span F64 maxcats f cases
  | FNum f => nSpan f cases
  end.
(** The features transduction.go:114-115 goes through. *)
Definition trans_features (targetname : string) (fs : list feature) : list feature :=
  filter (fun f => negb (String.eqb (fName f) targetname)) fs.
Definition trans_density (targetname : string) (fs : list feature) (cases : list nat) : res F64 :=
  TransDensity F64 (map (trans_span (MaxCats fs)) (trans_features targetname fs)) cases.
