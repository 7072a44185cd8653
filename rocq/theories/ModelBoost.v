(** Boosting targets: gradient boosting of a number, of two classes, adaptive
    boosting.  A leaf partition is given as in tree.go:364-385, by the case array
    and windows into it. *)
From Verif Require Import Go F64 ModelFeature ModelTree ModelImpurity.
Local Open Scope string_scope.
Local Open Scope nat_scope.
Local Open Scope list_scope.

Section Boost.
  Variable A : arith.
  Local Notation zero := (nofZ A 0).
  (** strconv.ParseFloat(s, 64), [None] when it reports an error *)
  Variable ParseFloat : string -> option A.

  (** utils.go:13-17 ParseFloat.  The value returned with an error is 0 for a syntax
      error; the infinity returned with a range error is not modelled. *)
  Definition parse0 (s : string) : A := match ParseFloat s with Some v => v | None => zero end.

  (** densenumfeature.go:12-17 DenseNumFeature: NumData and Missing *)
  Record numcol := mkNC { ncData : list A; ncMissing : list bool }.
  (** densenumfeature.go:96-99 Put *)
  Definition ncPut (i : nat) (v : A) (f : numcol) : res numcol :=
    let* d := set (ncData f) i v in
    let* m := set (ncMissing f) i false in
    Ok (mkNC d m).

  (** gradboosttarget.go:10-14 GradBoostTarget *)
  Record gradboost := mkGB { gbF : numcol; gbLearn : A; gbMean : A }.

  (** gradboosttarget.go:16-37 NewGradBoostTarget *)
  Definition NewGradBoostTarget (f : numcol) (learnrate : A) : res gradboost :=
    let n := length (ncMissing f) in
    let* sum := for_up n 0 (fun i sum => let* x := get (ncData f) i in Ok (nadd A sum x)) zero in
    let prior := ndiv A sum (nofZ A (Z.of_nat n)) in
    let* f := for_up n 0 (fun i f => let* x := get (ncData f) i in ncPut i (nsub A x prior) f) f in
    Ok (mkGB f learnrate prior).

  (** gradboosttarget.go:39-41 Intercept *)
  Definition gbIntercept (g : gradboost) : A := gbMean g.

  (** gradboosttarget.go:54-60 Update *)
  Definition gbUpdate (cases : list nat) (predicted : A) (g : gradboost) : res gradboost :=
    foreach cases (fun i g =>
      let* m := get (ncMissing (gbF g)) i in
      if m then Ok g
      else
        let* x := get (ncData (gbF g)) i in
        let* f := ncPut i (nsub A x (nmul A (gbLearn g) predicted)) (gbF g) in
        Ok (mkGB f (gbLearn g) (gbMean g))) g.

  (** [for i, cases := range *leaves { f.Update(&cases, ParseFloat(( *preds)[i])) }] *)
  Definition over_leaves {B} (update : list nat -> A -> B -> res B)
      (arr : list nat) (leaves : list (nat * nat)) (preds : list string) (g : B) : res B :=
    for_up (length leaves) 0 (fun i g =>
      let* w := get leaves i in
      let* cases := slice arr (fst w) (snd w) in
      let* s := get preds i in
      update cases (parse0 s) g) g.

  (** gradboosttarget.go:44-50 Boost: the target after boosting and the tree weight *)
  Definition gbBoost (arr : list nat) (leaves : list (nat * nat)) (preds : list string) (g : gradboost)
    : res (gradboost * A) :=
    let* g := over_leaves gbUpdate arr leaves preds g in Ok (g, gbLearn g).

  (** forrest.go:61-66 and growforest.go:667-669: Partition and Boost after each
      tree.  The trees (and the matrices they were grown on, which hold the changing
      target) are given; nothing is assumed about how they were grown. *)
  Definition gbRounds (rounds : list (fmatrix * node)) (g : gradboost) : res (gradboost * list A) :=
    foreach rounds (fun '((fm, t) : fmatrix * node) '((g, ws) : gradboost * list A) =>
      let* (arr, (leaves, preds)) := TreePartition fm t in
      let* (g, w) := gbBoost arr leaves preds g in
      Ok (g, ws ++ [w])) (g, []).

  (** ** gradboostclasstarget.go *)
  Section Class.
    (** math.Tanh and math.Log *)
    Variables ntanh mlog : A -> A.
    (** gradboostclasstarget.go:8-10 Logit *)
    Definition Logit (x : A) : A := mlog (ndiv A x (nsub A (nofZ A 1) x)).
    (** gradboostclasstarget.go:12-19 Expit; the constant 0.5 is 1/2 *)
    Definition Expit (x : A) : A :=
      let half := ndiv A (nofZ A 1) (nofZ A 2) in
      let out := nmul A half x in
      let out := ntanh out in
      let out := nadd A out (nofZ A 1) in
      nmul A out half.

    (** Expit, or any function, and math.Log *)
    Variables expit nlog : A -> A.

    (** gradboostclasstarget.go:26-33 GradBoostClassTarget; the embedded target's own
        learning rate and mean are not used *)
    Record gbclass := mkGBC { gcRes : numcol; gcActual : numcol; gcPred : numcol; gcLearn : A; gcPrior : A }.

    (** gradboostclasstarget.go:35-72 NewGradBoostClassTarget.  [actual] is the first
        column of EncodeToNum, which shares the Missing slice of [f]
        (densecatfeature.go:28-57): putting a value into it changes [f].  Result: the
        target and [f] afterwards. *)
    Definition NewGradBoostClassTarget (f : catF) (learnrate : A) (pos_class : string) : res (gbclass * catF) :=
      let n := length (cMissing f) in
      (* densecatfeature.go:30-39, 42-52: the values are overwritten below *)
      let* enc := foreach (combine (seq 0 (length (cData f))) (cData f)) (fun '((i, v) : nat * nat) d =>
                    set d i (if NCats (cMap f) <=? 2 then nofZ A (Z.of_nat v)
                             else if v =? 0 then nofZ A 1 else zero)) (repeat zero n) in
      let pred := mkNC enc (cMissing f) in
      let* (actual, f) := for_up n 0 (fun i '((actual, f) : numcol * catF) =>
          let* s := cGetStr f i in
          let* a := ncPut i (if (s =? pos_class)%string then nofZ A 1 else zero) actual in
          Ok (a, mkCat (cMap f) (cData f) (ncMissing a) (cName f) (cRandom f) (cHas f)))
        (mkNC enc (cMissing f), f) in
      let* pos := for_up n 0 (fun i pos => let* x := get (ncData actual) i in Ok (nadd A pos x)) zero in
      let prior := nlog (ndiv A pos (nsub A (nofZ A (Z.of_nat n)) pos)) in
      let* (pred, r) := for_up n 0 (fun i '((pred, r) : numcol * numcol) =>
          let* pred := ncPut i prior pred in
          let* x := get (ncData actual) i in
          let* r := ncPut i (nsub A x (expit prior)) r in
          Ok (pred, r)) (pred, actual) in
      Ok (mkGBC r actual pred learnrate prior, f).

    (** gradboostclasstarget.go:74-76 Intercept *)
    Definition gcIntercept (g : gbclass) : A := gcPrior g.

    (** gradboostclasstarget.go:111-120 Update *)
    Definition gcUpdate (cases : list nat) (predicted : A) (g : gbclass) : res gbclass :=
      foreach cases (fun i g =>
        let* x := get (ncData (gcPred g)) i in
        let pred := nadd A x (nmul A (gcLearn g) predicted) in
        let* pf := ncPut i pred (gcPred g) in
        let* a := get (ncData (gcActual g)) i in
        let* rf := ncPut i (nsub A a (expit pred)) (gcRes g) in
        Ok (mkGBC rf (gcActual g) pf (gcLearn g) (gcPrior g))) g.

    (** gradboostclasstarget.go:79-85 Boost *)
    Definition gcBoost (arr : list nat) (leaves : list (nat * nat)) (preds : list string) (g : gbclass)
      : res (gbclass * A) :=
      let* g := over_leaves gcUpdate arr leaves preds g in Ok (g, gcLearn g).

    Definition gcRounds (rounds : list (fmatrix * node)) (g : gbclass) : res (gbclass * list A) :=
      foreach rounds (fun '((fm, t) : fmatrix * node) '((g, ws) : gbclass * list A) =>
        let* (arr, (leaves, preds)) := TreePartition fm t in
        let* (g, w) := gcBoost arr leaves preds g in
        Ok (g, ws ++ [w])) (g, []).

    (** gradboostclasstarget.go:87-101 Predicted *)
    Definition gcPredicted (cases : list nat) (g : gbclass) : res A :=
      let* (num, denom) := foreach cases (fun c '((num, denom) : A * A) =>
          let* r := get (ncData (gcRes g)) c in
          let* y := get (ncData (gcActual g)) c in
          Ok (nadd A num r, nadd A denom (nmul A (nsub A y r) (nadd A (nsub A (nofZ A 1) y) r)))) (zero, zero) in
      Ok (ndiv A num denom).
  End Class.

  (** ** adaboosttarget.go and adacosttarget.go *)
  Section Ada.
    (** math.Log and math.Exp *)
    Variables nlog nexp : A -> A.
    (** [-x] *)
    Definition nneg (x : A) : A := nsub A zero x.

    (** adaboosttarget.go:20-27 NewAdaBoostTarget: the weights *)
    Definition NewAdaWeights (nCases : nat) : list A := repeat (ndiv A (nofZ A 1) (nofZ A (Z.of_nat nCases))) nCases.

    (** adaboosttarget.go:115-159 and adacosttarget.go:131-174 Boost, which differ in
        the impurity and in the factor for the category ([cost]; none for adaptive
        boosting).  [data] and [missing] are CatData and Missing of the target. *)
    Definition ada_boost (imp : list A -> list nat -> list Z -> res (A * list Z)) (scale : nat -> A -> res A)
        (data : list nat) (missing : list bool) (ncats : nat)
        (leaves : list (list nat)) (weights : list A) : res (list A * A) :=
      let* (err, counter) := foreach leaves (fun cases '((err, counter) : A * list Z) =>
          let* (e, counter) := imp weights cases counter in
          Ok (nadd A err e, counter)) (zero, repeat 0%Z ncats) in
      if nleb A (ndiv A (nofZ A 1) (nofZ A 2)) err then Ok (weights, zero)
      else
        let weight := nmul A (ndiv A (nofZ A 1) (nofZ A 2)) (nlog (ndiv A (nsub A (nofZ A 1) err) err)) in
        let* (weights, _) := foreach leaves (fun cases '((weights, counter) : list A * list Z) =>
            let* counter := CountPerCat data cases counter in
            let m := count_mode counter in
            let* weights := foreach cases (fun c weights =>
                let* ms := get missing c in
                if ms then Ok weights
                else
                  let* cat := get data c in
                  let* w := get weights c in
                  let* w := scale cat (nmul A w (if cat =? m then nexp (nneg weight) else nexp weight)) in
                  set weights c w) weights in
            Ok (weights, counter)) (weights, counter) in
        let norm := fold_left (nadd A) weights zero in
        Ok (map (fun v => ndiv A v norm) weights, weight).

    (** adaboosttarget.go:115-159 Boost *)
    Definition AdaBoost (data : list nat) (missing : list bool) (ncats : nat)
        (leaves : list (list nat)) (weights : list A) : res (list A * A) :=
      ada_boost (fun weights => AdaImpurity A weights data) (fun _ w => Ok w) data missing ncats leaves weights.

    (** adacosttarget.go:131-174 Boost *)
    Definition AdaCostBoost (costs : list A) (data : list nat) (missing : list bool) (ncats : nat)
        (leaves : list (list nat)) (weights : list A) : res (list A * A) :=
      ada_boost (fun weights => AdaCostImpurity A weights costs data)
        (fun cat w => let* c := get costs cat in Ok (nmul A w c)) data missing ncats leaves weights.
  End Ada.
End Boost.
