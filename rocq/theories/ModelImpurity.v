(** Model of the impurity functions of the targets: Gini (DenseCatFeature),
    entropy, disutility entropy, regret, Neyman-Pearson, weighted, adaptive
    boosting and cost boosting targets, the numerical target, L1, gradient
    boosting scores, and of the predictions made for a set of cases.

    The functions are polymorphic in the arithmetic [A] ([F64] is the code, [XR]
    the exact reading).  Go's [int] counters are unbounded integers [Z]
    (overflow of 64 bit counters is not modelled); they are [Z] and not [nat]
    because [UpdateSImpFromAllocs] decrements them. *)
From Verif Require Import Go F64 ModelFeature.
Local Open Scope string_scope.
Local Open Scope nat_scope.
Local Open Scope list_scope.

(** splitallocations.go:19-21: the three class counters of BestSplitAllocs. *)
Record counters := mkK { kL : list Z; kR : list Z; kM : list Z }.

(** densecatfeature.go:1032-1049 CountPerCat: reset, then count.  [data] is
    CatData; there is no test for missing values. *)
Definition CountPerCat (data cases : list nat) (counter : list Z) : res (list Z) :=
  foreach cases (fun i counter =>
    let* c := get data i in
    let* n := get counter c in
    set counter c (n + 1)%Z) (map (fun _ => 0%Z) counter).

(** densecatfeature.go:964-977 MoveCountsRtoL; the same loop is repeated in
    densecatfeature.go:982-994, NPtarget.go:66-77, wrftarget.go:46-57,
    regrettarget.go:58-69, adaboosttarget.go:50-61 and adacosttarget.go:66-77. *)
Definition MoveCountsRtoL (data moved : list nat) (lc rc : list Z) : res (list Z * list Z) :=
  foreach moved (fun i '((lc, rc) : list Z * list Z) =>
    let* cat := get data i in
    let* nl := get lc cat in
    let* lc' := set lc cat (nl + 1)%Z in
    let* nr := get rc cat in
    let* rc' := set rc cat (nr - 1)%Z in
    Ok (lc', rc')) (lc, rc).

(** [for cat, count := range counter], as (cat, count) pairs from [k] on. *)
Fixpoint indexed {T} (k : nat) (l : list T) : list (nat * T) :=
  match l with
  | [] => []
  | v :: l' => (k, v) :: indexed (S k) l'
  end.

Section Imp.
  Variable A : arith.
  Let zero : A := nofZ A 0.
  Definition num (z : Z) : A := nofZ A z.
  Definition len (l : list nat) : A := nofZ A (Z.of_nat (length l)).

  (** An impurity computed from scratch: value and the refilled counter. *)
  Definition impurity := list nat -> list Z -> res (A * list Z).
  (** An impurity recomputed from counts that are already there. *)
  Definition recount := list nat -> list Z -> res A.

  (** [m != nil && len( *m) > 0] *)
  Definition has_m (m : option (list nat)) : option (list nat) :=
    match m with
    | Some (c :: m') => Some (c :: m')
    | _ => None
    end.

  (** SplitImpurity: densecatfeature.go:945-961, entropytarget.go:23-38,
      dentropytarget.go:38-53, regrettarget.go:39-53, NPtarget.go:47-61,
      wrftarget.go:27-41, adaboosttarget.go:31-45, adacosttarget.go:47-61,
      ordinaltarget.go:38-52, numadaboostingtarget.go:32-46 — the same text up to the name of the
      impurity function. *)
  Definition SplitImpurity (imp : impurity) (l r : list nat) (m : option (list nat)) (k : counters)
    : res (A * counters) :=
    let nl := len l in
    let nr := len r in
    let* (il, lc) := imp l (kL k) in
    let d := nmul A nl il in
    let* (ir, rc) := imp r (kR k) in
    let d := nadd A d (nmul A nr ir) in
    match has_m m with
    | Some mm =>
        let nm := len mm in
        let* (im, mc) := imp mm (kM k) in
        let d := nadd A d (nmul A nm im) in
        Ok (ndiv A d (nadd A (nadd A nl nr) nm), mkK lc rc mc)
    | None => Ok (ndiv A d (nadd A (nadd A nl nr) zero), mkK lc rc (kM k))
    end.

  (** UpdateSImpFromAllocs of the wrapping targets: entropytarget.go:41-56,
      dentropytarget.go:56-71, regrettarget.go:57-83, NPtarget.go:65-91,
      wrftarget.go:45-71, adaboosttarget.go:49-75, adacosttarget.go:65-91. *)
  Definition UpdateSImp (data : list nat) (from : recount)
      (l r : list nat) (m : option (list nat)) (k : counters) (moved : list nat)
    : res (A * counters) :=
    let* (lc, rc) := MoveCountsRtoL data moved (kL k) (kR k) in
    let nl := len l in
    let nr := len r in
    let* il := from l lc in
    let d := nmul A nl il in
    let* ir := from r rc in
    let d := nadd A d (nmul A nr ir) in
    match has_m m with
    | Some mm =>
        let nm := len mm in
        let* im := from mm (kM k) in
        let d := nadd A d (nmul A nm im) in
        Ok (ndiv A d (nadd A (nadd A nl nr) nm), mkK lc rc (kM k))
    | None => Ok (ndiv A d (nadd A (nadd A nl nr) zero), mkK lc rc (kM k))
    end.

  (** densecatfeature.go:981-1009 UpdateSImpFromAllocs of DenseCatFeature: the
      divisor is accumulated in [nl]. *)
  Definition UpdateSImp_gini (data : list nat) (from : recount)
      (l r : list nat) (m : option (list nat)) (k : counters) (moved : list nat)
    : res (A * counters) :=
    let* (lc, rc) := MoveCountsRtoL data moved (kL k) (kR k) in
    let nl := len l in
    let nr := len r in
    let* il := from l lc in
    let d := nmul A nl il in
    let* ir := from r rc in
    let d := nadd A d (nmul A nr ir) in
    match has_m m with
    | Some mm =>
        let nm := len mm in
        let* im := from mm (kM k) in
        let d := nadd A d (nmul A nm im) in
        Ok (ndiv A d (nadd A (nadd A nl nm) nr), mkK lc rc (kM k))
    | None => Ok (ndiv A d (nadd A nl nr), mkK lc rc (kM k))
    end.

  (** ** Gini *)

  (** densecatfeature.go:1056-1067 GiniWithoutAlocate *)
  Definition GiniWithoutAlocate (data : list nat) : impurity := fun cases counts =>
    let total := Z.of_nat (length cases) in
    let* counts := CountPerCat data cases counts in
    let t := num (total * total) in
    Ok (fold_left (fun e i => nsub A e (ndiv A (num (i * i)) t)) counts (nadd A zero (num 1)), counts).

  (** densecatfeature.go:1070-1078 ImpFromCounts *)
  Definition GiniFromCounts : recount := fun cases counts =>
    let total := Z.of_nat (length cases) in
    let t := num (total * total) in
    Ok (fold_left (fun e i => nsub A e (ndiv A (num (i * i)) t)) counts (nadd A zero (num 1))).

  (** densecatfeature.go:1024-1028 Gini *)
  Definition Gini (data : list nat) (ncats : nat) (cases : list nat) : res A :=
    let* (e, _) := GiniWithoutAlocate data cases (repeat 0%Z ncats) in Ok e.

  (** ** Entropy.  [nlog] is math.Log. *)
  Section Log.
    Variable nlog : A -> A.

    (** entropytarget.go:72-88 Impurity *)
    Definition EntropyImpurity (data : list nat) : impurity := fun cases counts =>
      let total := Z.of_nat (length cases) in
      let* counts := CountPerCat data cases counts in
      let e := fold_left (fun e i =>
        if (0 <? i)%Z then
          let p := ndiv A (num i) (num total) in
          nsub A e (nmul A p (nlog p))
        else e) counts zero in
      Ok (e, counts).

    (** entropytarget.go:58-68 ImpFromCounts *)
    Definition EntropyFromCounts : recount := fun cases counts =>
      let total := Z.of_nat (length cases) in
      Ok (fold_left (fun e i =>
        if (0 <? i)%Z then
          let p := ndiv A (num i) (num total) in
          nsub A e (nmul A p (nlog p))
        else e) counts zero).

    (** dentropytarget.go:118-134 Impurity (Costs are not used) *)
    Definition DEntropyImpurity (data : list nat) : impurity := fun cases counts =>
      let total := Z.of_nat (length cases) in
      let* counts := CountPerCat data cases counts in
      let e := fold_left (fun e i =>
        if (0 <? i)%Z then
          let p := ndiv A (num i) (num total) in
          nsub A e (nmul A p (nlog p))
        else e) counts zero in
      Ok (e, counts).

    (** dentropytarget.go:73-83 ImpFromCounts *)
    Definition DEntropyFromCounts (costs : list A) : recount := fun cases counts =>
      let total := Z.of_nat (length cases) in
      foreach (indexed 0 counts) (fun '((c, i) : nat * Z) e =>
        if (0 <? i)%Z then
          let p := ndiv A (num i) (num total) in
          let* cost := get costs c in
          Ok (nsub A e (nmul A (nmul A cost p) (nlog p)))
        else Ok e) zero.
  End Log.

  (** ** Regret *)

  (** regrettarget.go:110-122 and 89-101: the category with the largest
      count times cost, strictly larger than the ones before and than 0. *)
  Definition regret_mode (costs : list A) (counter : list Z) : res nat :=
    let* (mi, _) := foreach (indexed 0 counter) (fun '((cat, count) : nat * Z) '((mi, mc) : nat * A) =>
      let* cost := get costs cat in
      let cc := nmul A (num count) cost in
      Ok (if nltb A mc cc then (cat, cc) else (mi, mc))) (0, zero) in
    Ok mi.

  (** regrettarget.go:108-136 ImpFromCounts.  [t] starts as the number of cases
      and the counts are added to it. *)
  Definition RegretFromCounts (costs : list A) : recount := fun cases counter =>
    let* mi := regret_mode costs counter in
    let* (t, e) := foreach (indexed 0 counter) (fun '((cat, count) : nat * Z) '((t, e) : Z * A) =>
      let t := (t + count)%Z in
      if cat =? mi then Ok (t, e)
      else let* cost := get costs cat in
           Ok (t, nadd A e (nmul A cost (num count)))) (Z.of_nat (length cases), zero) in
    Ok (ndiv A e (num t)).

  (** regrettarget.go:139-147 Impurity *)
  Definition RegretImpurity (costs : list A) (data : list nat) : impurity := fun cases counter =>
    let* counter := CountPerCat data cases counter in
    let* e := RegretFromCounts costs cases counter in
    Ok (e, counter).

  (** regrettarget.go:87-105 FindPredicted (the category number) *)
  Definition RegretPredicted (costs : list A) (data : list nat) (ncats : nat) (cases : list nat) : res nat :=
    let* counts := CountPerCat data cases (repeat 0%Z ncats) in
    regret_mode costs counts.

  (** regrettarget.go:29-34, dentropytarget.go:28-33 and adacosttarget.go:37-42
      SetCosts; wrftarget.go:14-22 fills Weights in the same way.  A name without
      entry in the map gets 0. *)
  Definition SetCosts (back : list string) (costmap : list (string * A)) : list A :=
    map (fun c => match assoc c costmap with Some v => v | None => zero end) back.

  (** ** Neyman-Pearson *)

  (** [math.Max(x, 0)] *)
  Definition max0 (x : A) : A :=
    if nnan A x then x else if nltb A zero x then x else zero.

  (** NPtarget.go:123-139 with the totals of positives and negatives. *)
  Definition np_scan (posi : nat) (alpha : A) (counter : list Z) : nat * (Z * Z) :=
    let '(tp, tn, (mi, _)) :=
      fold_left (fun '((tp, tn, (mi, mc)) : Z * Z * (nat * A)) '((cat, count) : nat * Z) =>
        let cc := num count in
        let '(tp, tn, cc) :=
          if cat =? posi then ((tp + count)%Z, tn, ndiv A cc alpha)
          else (tp, (tn + count)%Z, cc) in
        if nltb A mc cc then (tp, tn, (cat, cc)) else (tp, tn, (mi, mc)))
        (indexed 0 counter) (0%Z, 0%Z, (0, zero)) in
    (mi, (tp, tn)).

  (** NPtarget.go:119-151 ImpFromCounts *)
  Definition NPFromCounts (posi : nat) (alpha kappa : A) : recount := fun cases counter =>
    let t := Z.of_nat (length cases) in
    let '(mi, (tp, tn)) := np_scan posi alpha counter in
    Ok (if posi =? mi then nmul A kappa (max0 (nsub A (ndiv A (num tn) (num t)) alpha))
        else ndiv A (num tp) (num t)).

  (** NPtarget.go:155-163 Impurity *)
  Definition NPImpurity (posi : nat) (alpha kappa : A) (data : list nat) : impurity := fun cases counter =>
    let* counter := CountPerCat data cases counter in
    let* e := NPFromCounts posi alpha kappa cases counter in
    Ok (e, counter).

  (** NPtarget.go:95-116 FindPredicted (the category number) *)
  Definition NPPredicted (posi : nat) (alpha : A) (data : list nat) (ncats : nat) (cases : list nat) : res nat :=
    let* counts := CountPerCat data cases (repeat 0%Z ncats) in
    let '(mi, _) := fold_left (fun '((mi, mc) : nat * A) '((cat, count) : nat * Z) =>
        let cc := num count in
        let cc := if cat =? posi then ndiv A cc alpha else cc in
        if nltb A mc cc then (cat, cc) else (mi, mc)) (indexed 0 counts) (0, zero) in
    Ok mi.

  (** ** Weighted random forest *)

  (** wrftarget.go:82-97 ImpFromCounts *)
  Definition WRFFromCounts (weights : list A) : recount := fun _ counter =>
    let* (total, e) := foreach (indexed 0 counter) (fun '((i, v) : nat * Z) '((total, e) : A * A) =>
      let* w := get weights i in
      Ok (nadd A total (nmul A (num v) w),
          nsub A e (nmul A (nmul A (num (v * v)) w) w))) (zero, zero) in
    Ok (nadd A (ndiv A e (nmul A total total)) (num 1)).

  (** wrftarget.go:74-79 Impurity *)
  Definition WRFImpurity (weights : list A) (data : list nat) : impurity := fun cases counter =>
    let* counter := CountPerCat data cases counter in
    let* e := WRFFromCounts weights cases counter in
    Ok (e, counter).

  (** wrftarget.go:100-123 FindPredicted (the category number) *)
  Definition WRFPredicted (weights : list A) (f : catF) (cases : list nat) : res nat :=
    let* counts := mode_counts f cases in
    let* (m, _) := foreach (indexed 0 counts) (fun '((k, v) : nat * nat) '((m, max) : nat * A) =>
      let* w := get weights k in
      let val := nmul A (num (Z.of_nat v)) w in
      Ok (if nltb A max val then (k, val) else (m, max))) (0, zero) in
    Ok m.

  (** ** Transduction: the predicted category only (transduction.go:137-165).
      Geti does not test for missing values. *)
  Definition TransPredicted (unlabeled : nat) (beta : A) (data : list nat) (ncats : nat) (cases : list nat)
    : res nat :=
    let* counts := CountPerCat data cases (repeat 0%Z ncats) in
    let '(m, _) := fold_left (fun '((m, max) : nat * A) '((k, v) : nat * Z) =>
        let vf := if k =? unlabeled then nmul A beta (num v) else num v in
        if nltb A max vf then (k, vf) else (m, max)) (indexed 0 counts) (unlabeled, zero) in
    Ok m.

  (** ** Adaptive boosting *)

  (** adaboosttarget.go:91-98 (and 131-137, adacosttarget.go:107-114, 146-152):
      first category with the maximal count. *)
  Definition count_mode (counter : list Z) : nat :=
    fst (fold_left (fun '((m, mc) : nat * Z) '((i, c) : nat * Z) =>
      if (mc <? c)%Z then (i, c) else (m, mc)) (indexed 0 counter) (0, 0%Z)).

  (** adaboosttarget.go:89-111 ImpFromCounts *)
  Definition AdaFromCounts (weights : list A) (data : list nat) : recount := fun cases counter =>
    let m := count_mode counter in
    foreach cases (fun c e =>
      let* cat := get data c in
      if cat =? m then Ok e
      else let* w := get weights c in Ok (nadd A e w)) zero.

  (** adaboosttarget.go:78-86 Impurity *)
  Definition AdaImpurity (weights : list A) (data : list nat) : impurity := fun cases counter =>
    let* counter := CountPerCat data cases counter in
    let* e := AdaFromCounts weights data cases counter in
    Ok (e, counter).

  (** adacosttarget.go:105-127 ImpFromCounts *)
  Definition AdaCostFromCounts (weights costs : list A) (data : list nat) : recount := fun cases counter =>
    let m := count_mode counter in
    foreach cases (fun c e =>
      let* cat := get data c in
      if cat =? m then Ok e
      else let* w := get weights c in
           let* cost := get costs cat in
           Ok (nadd A e (nmul A w cost))) zero.

  (** adacosttarget.go:94-102 Impurity *)
  Definition AdaCostImpurity (weights costs : list A) (data : list nat) : impurity := fun cases counter =>
    let* counter := CountPerCat data cases counter in
    let* e := AdaCostFromCounts weights costs data cases counter in
    Ok (e, counter).

  (** ** Hellinger distance *)

  (** hdistancetarget.go:38-63 HDist *)
  Definition HDist (l r : list Z) : res A :=
    let* l0 := get l 0 in
    let* r0 := get r 0 in
    let* l1 := get l 1 in
    let* r1 := get r 1 in
    let total_0 := num (l0 + r0) in
    let total_1 := num (l1 + r1) in
    let inner := nsub A (ndiv A (num l0) total_0) (ndiv A (num l1) total_1) in
    let d := nmul A inner inner in
    let inner := nsub A (ndiv A (num r0) total_0) (ndiv A (num r1) total_1) in
    Ok (nadd A d (nmul A inner inner)).

  (** hdistancetarget.go:24-29 SplitImpurity *)
  Definition HDistSplit (data l r : list nat) (k : counters) : res (A * counters) :=
    let* lc := CountPerCat data l (kL k) in
    let* rc := CountPerCat data r (kR k) in
    let* d := HDist lc rc in
    Ok (d, mkK lc rc (kM k)).

  (** hdistancetarget.go:33-36 UpdateSImpFromAllocs *)
  Definition HDistUpdate (data : list nat) (k : counters) (moved : list nat) : res (A * counters) :=
    let* (lc, rc) := MoveCountsRtoL data moved (kL k) (kR k) in
    let* d := HDist lc rc in
    Ok (d, mkK lc rc (kM k)).

  (** ** Numerical targets *)

  (** splitallocations.go:22-27: the running sums of BestSplitAllocs. *)
  Record sums := mkSums { sLs : A; sLq : A; sRs : A; sRq : A; sMs : A; sMq : A }.

  (** densenumfeature.go:470-477 SumAndSumSquares; [data] is NumData. *)
  Definition SumAndSumSquares (data : list A) (cases : list nat) : res (A * A) :=
    foreach cases (fun i '((s, q) : A * A) =>
      let* x := get data i in
      Ok (nadd A s x, nadd A q (nmul A x x))) (zero, zero).

  (** densenumfeature.go:481-495 Impurity *)
  Definition NumImpurity (data : list A) (cases : list nat) : res A :=
    let* (s, q) := SumAndSumSquares data cases in
    Ok (nsub A q (ndiv A (nmul A s s) (len cases))).

  (** densenumfeature.go:394-431 SplitImpurity *)
  Definition NumSplitImpurity (data : list A) (l r : list nat) (m : option (list nat)) (a : sums)
    : res (A * sums) :=
    let nl := len l in
    let nr := len r in
    let* (ls, lq) := SumAndSumSquares data l in
    let d := nmul A nl (nsub A lq (ndiv A (nmul A ls ls) nl)) in
    let* (rs, rq) := SumAndSumSquares data r in
    let d := nadd A d (nmul A nr (nsub A rq (ndiv A (nmul A rs rs) nr))) in
    match has_m m with
    | Some mm =>
        let nm := len mm in
        let* (ms, mq) := SumAndSumSquares data mm in
        let d := nadd A d (nmul A nm (nsub A mq (ndiv A (nmul A ms ms) nm))) in
        Ok (ndiv A d (nadd A (nadd A nl nr) nm), mkSums ls lq rs rq ms mq)
    | None => Ok (ndiv A d (nadd A (nadd A nl nr) zero), mkSums ls lq rs rq (sMs a) (sMq a))
    end.

  (** densenumfeature.go:435-468 UpdateSImpFromAllocs *)
  Definition NumUpdate (data : list A) (l r : list nat) (m : option (list nat)) (a : sums)
      (moved : list nat) : res (A * sums) :=
    let* (vs, vq) := SumAndSumSquares data moved in
    let a := mkSums (nadd A (sLs a) vs) (nadd A (sLq a) vq)
                    (nsub A (sRs a) vs) (nsub A (sRq a) vq) (sMs a) (sMq a) in
    let nl := len l in
    let nr := len r in
    let d := nmul A nl (nsub A (sLq a) (ndiv A (nmul A (sLs a) (sLs a)) nl)) in
    let d := nadd A d (nmul A nr (nsub A (sRq a) (ndiv A (nmul A (sRs a) (sRs a)) nr))) in
    match has_m m with
    | Some mm =>
        let nm := len mm in
        let d := nadd A d (nmul A nm (nsub A (sMq a) (ndiv A (nmul A (sMs a) (sMs a)) nm))) in
        Ok (ndiv A d (nadd A (nadd A nl nr) nm), a)
    | None => Ok (ndiv A d (nadd A (nadd A nl nr) zero), a)
    end.

  (** densenumfeature.go:516-529 Mean over any arithmetic ([nMean] of
      ModelFeature.v is the same at float64). *)
  Definition NumMean (data : list A) (missing : list bool) (cases : list nat) : res A :=
    let* (m, n) := foreach cases (fun i '((m, n) : A * nat) =>
      let* miss := get missing i in
      if miss then Ok (m, n)
      else let* x := get data i in Ok (nadd A m x, n + 1)) (zero, 0) in
    Ok (ndiv A m (num (Z.of_nat n))).

  (** densenumfeature.go:499-512 Error *)
  Definition NumError (data : list A) (missing : list bool) (cases : list nat) (predicted : A) : res A :=
    let* (e, n) := foreach cases (fun i '((e, n) : A * nat) =>
      let* miss := get missing i in
      if miss then Ok (e, n)
      else let* x := get data i in
           let d := nsub A predicted x in
           Ok (nadd A e (nmul A d d), n + 1)) (zero, 0) in
    Ok (ndiv A e (num (Z.of_nat n))).

  (** gradboosttarget.go:74-80 Sum *)
  Definition GBSum (data : list A) (cases : list nat) : res A :=
    foreach cases (fun i s => let* x := get data i in Ok (nadd A s x)) zero.

  (** gradboosttarget.go:82-93 FriedmanScore *)
  Definition FriedmanScore (ls rs : A) (l r : list nat) : A :=
    let nl := len l in
    let nr := len r in
    let diff := nsub A (ndiv A ls nl) (ndiv A rs nr) in
    ndiv A (nmul A (nmul A (nmul A diff diff) nl) nr) (nadd A nl nr).

  (** gradboosttarget.go:97-104 SplitImpurity *)
  Definition GBSplit (data : list A) (l r : list nat) : res (A * (A * A)) :=
    let* ls := GBSum data l in
    let* rs := GBSum data r in
    Ok (FriedmanScore ls rs l r, (ls, rs)).

  (** gradboosttarget.go:106-115 UpdateSImpFromAllocs *)
  Definition GBUpdate (data : list A) (l r : list nat) (a : A * A) (moved : list nat) : res (A * (A * A)) :=
    let* mv := GBSum data moved in
    let ls := nadd A (fst a) mv in
    let rs := nsub A (snd a) mv in
    Ok (FriedmanScore ls rs l r, (ls, rs)).
End Imp.
