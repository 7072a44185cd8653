(** Model of the searches for the best split of one feature:
    DenseNumFeature.BestSplit / BestNumSplit and DenseCatFeature.BestSplit /
    BestCatSplit / BestBinSplit / BestCatSplitIter / BestCatSplitIterBig /
    BestCatSplitBig.

    The target is an interface value: a record of functions on a state [St] (the
    part of BestSplitAllocs the target writes to).  Impurities live in an
    arithmetic [A]; feature values are always float64. *)
From Verif Require Import Go F64 ModelFeature ModelSplit ModelSort.
Local Open Scope nat_scope.
Local Open Scope list_scope.

(** featureinterfaces.go:81-88, the methods of Target the searches call. *)
Record target (A : arith) (St : Type) := mkTarget {
  (** Impurity(cases, counter) *)
  tImp : list nat -> St -> res (A * St);
  (** SplitImpurity(l, r, m, allocs) *)
  tSplit : list nat -> list nat -> option (list nat) -> St -> res (A * St);
  (** UpdateSImpFromAllocs(l, r, m, allocs, movedRtoL) *)
  tUpdate : list nat -> list nat -> option (list nat) -> list nat -> St -> res (A * St)
}.
Arguments mkTarget {A St} _ _ _.
Arguments tImp {A St} _ _ _.
Arguments tSplit {A St} _ _ _ _ _.
Arguments tUpdate {A St} _ _ _ _ _ _.

(** splitallocations.go:9-33, what persists from one call to the next and is read:
    Sorter.Vals, CatVals, the target's scratch space and the number of random
    draws made so far.  Left, Right and NonMissing are emptied before every use
    and grow with [append]; LM, RM, MM are assigned before every use. *)
Record allocs (St : Type) := mkAl {
  aVals : list f64;
  aCat : list Z;
  aTgt : St;
  aDraw : nat
}.
Arguments mkAl {St} _ _ _ _.
Arguments aVals {St} _.
Arguments aCat {St} _.
Arguments aTgt {St} _.
Arguments aDraw {St} _.

(** sortablefeature.go:56-63 Load *)
Definition load (data : list f64) (cases : list nat) (vals : list f64) : res (list f64) :=
  let* (_, vals) := foreach cases (fun p '((i, vals) : nat * list f64) =>
    let* x := get data p in
    let* vals := set vals i x in
    Ok (S i, vals)) (0, vals) in
  Ok vals.

(** [1 << uint(c)] as a 64 bit int. *)
Definition shl1 (c : nat) : Z :=
  if c <? 63 then (2 ^ Z.of_nat c)%Z else if c =? 63 then (- 2 ^ 63)%Z else 0%Z.

(** [2 << uint(n-2)]: for n < 2 the shift count wraps around to a huge number.
    Not meant for n > 62, where the result overflows. *)
Definition nparts (n : nat) : nat := if n <? 2 then 0 else 2 ^ (n - 1).

Section Search.
  Variable A : arith.
  Variable St : Type.
  Variable T : target A St.
  (** [allocs.Rnd]: the outcome of the k-th draw, before reduction to a range. *)
  Variable rnd : nat -> nat.

  Let zero : A := nofZ A 0.
  (** featureinterfaces.go:8 minImp = 1e-7: the correctly rounded quotient. *)
  Definition minImp : A := ndiv A (nofZ A 1) (nofZ A 10000000).

  (** What a search returns: coded split, decrease, constant; and what it leaves
      behind: the rearranged cases and the allocations. *)
  Record found := mkFound { fCode : coded; fDec : A; fConst : bool; fCases : list nat; fAl : allocs St }.

  (** The two branches of [if parentImp < 0]: densenumfeature.go:333-338, 346-351,
      densecatfeature.go:459-464, 559-565, 731-737, 811-816, 903-908. *)
  Definition decrease (parentImp imp : A) : A :=
    if nltb A parentImp zero then imp else nsub A parentImp imp.

  (** densenumfeature.go:322-366, one pass of the loop of BestNumSplit.  State:
      lastsplit, lasti, impurityDecrease, splitf and the target's state. *)
  Definition num_step (cs : list nat) (vs : list f64) (parentImp : A) (i : nat)
      (s : nat * Z * A * f64 * St) : res (nat * Z * A * f64 * St) :=
    let '(lastsplit, lasti, dec, splitf, tg) := s in
    let* vi := get vs i in
    let* vl := getZ vs lasti in
    if fleb vi (fadd vl f1e_7) then Ok s
    else
      let* lm := slice cs 0 i in
      let* rm := slice cs i (length cs) in
      let* (imp, tg) :=
        (if lastsplit =? 0 then tSplit T lm rm None tg
         else let* mm := slice cs lastsplit i in tUpdate T lm rm None mm tg) in
      let innerimp := decrease parentImp imp in
      let '(dec, splitf) :=
        if nltb A dec innerimp then (innerimp, fdiv (fadd vl vi) f2) else (dec, splitf) in
      Ok (i, Z.of_nat i, dec, splitf, tg).

  (** densenumfeature.go:285-371 BestNumSplit.  With [constant] the result is the
      nil interface, otherwise a float64. *)
  Definition BestNumSplit (f : numF) (cases : list nat) (parentImp : A) (leafSize : nat)
      (randomSplit : bool) (al : allocs St) : res found :=
    let ncases := length cases in
    if 2 * leafSize <=? ncases then
      let* vals := load (nData f) cases (aVals al) in
      let* (cs, vs) := SortBy cases vals in
      let al := mkAl vs (aCat al) (aTgt al) (aDraw al) in
      let stop := ncases - leafSize in
      let* v0 := get vs 0 in
      let* vn := getZ vs (Z.of_nat ncases - 1) in
      if fleb vn (fadd v0 f1e_7) then Ok (mkFound CNil minImp true cs al)
      else
        let* (lo, stop, d) :=
          (if randomSplit && (leafSize <? stop) then
             let* k := (if stop - leafSize =? 0 then Panic else Ok (rnd (aDraw al) mod (stop - leafSize))) in
             Ok (leafSize + k, leafSize + k + 1, S (aDraw al))
           else Ok (leafSize, stop, aDraw al)) in
        let* (_, _, dec, splitf, tg) :=
          for_up (stop - lo) lo (num_step cs vs parentImp)
            (0, (Z.of_nat lo - 1)%Z, minImp, f0, aTgt al) in
        Ok (mkFound (CNum splitf) dec false cs (mkAl vs (aCat al) tg d))
    else Ok (mkFound (CNum f0) minImp false cases al).

  (** densenumfeature.go:236-269 and densecatfeature.go:178-225: the missing cases
      are set aside, the search runs on the others, and the decrease is corrected
      for the missing ones. *)
  Definition with_missing (has : bool) (missing : list bool)
      (search : list nat -> A -> allocs St -> res found)
      (cases : list nat) (parentImp : A) (al : allocs St) : res found :=
    if has then
      let* (ms, nms) := foreach cases (fun i '((ms, nms) : list nat * list nat) =>
        let* m := get missing i in
        Ok (if m then (ms ++ [i], nms) else (ms, nms ++ [i]))) ([], []) in
      if length nms =? 0 then Ok (mkFound CNil zero false cases al)
      else
        let nmissing := length ms in
        let total := length cases in
        let nonmissing := total - nmissing in
        let* (pimp, tg) := tImp T nms (aTgt al) in
        let* (mimp, tg) := (if 0 <? nmissing then tImp T ms tg else Ok (zero, tg)) in
        let* s := search nms pimp (mkAl (aVals al) (aCat al) tg (aDraw al)) in
        let num n := nofZ A (Z.of_nat n) in
        let dec :=
          if (0 <? nmissing) && nltb A minImp (fDec s) then
            nadd A parentImp (ndiv A (nsub A (nmul A (num nonmissing) (nsub A (fDec s) pimp))
                                             (nmul A (num nmissing) mimp)) (num total))
          else fDec s in
        Ok (mkFound (fCode s) dec (fConst s) cases (fAl s))
    else search cases parentImp al.

  (** densenumfeature.go:226-271 BestSplit *)
  Definition nBestSplit (f : numF) (cases : list nat) (parentImp : A) (leafSize : nat)
      (randomSplit : bool) (al : allocs St) : res found :=
    with_missing (nHas f) (nMissing f)
      (fun cs p al => BestNumSplit f cs p leafSize randomSplit al) cases parentImp al.

  (** densecatfeature.go:439-452, 540-553, 881-893: cases whose category has its
      bit set are appended to [left], the others to [right]. *)
  Definition by_bit (bit : nat -> bool) (data cases : list nat) : res (list nat * list nat) :=
    foreach cases (fun c '((l, r) : list nat * list nat) =>
      let* cat := get data c in
      Ok (if bit cat then (l ++ [c], r) else (l, r ++ [c]))) ([], []).

  (** densecatfeature.go:429-474 and 531-575: the inner loop of the iterative
      searches.  [bit] and [setb] are the bit operations of int or big.Int. *)
  Definition iter_step (bit : Z -> nat -> bool) (setb : Z -> nat -> Z) (data cases : list nat)
      (parentImp : A) (leafSize : nat) (best : Z) (i : nat) (s : Z * A * St) : res (Z * A * St) :=
    let '(innerSplit, innerImp, tg) := s in
    if bit best i then Ok s
    else
      let next := setb best i in
      let* (l, r) := by_bit (bit next) data cases in
      if (length l <? leafSize) || (length r <? leafSize) then Ok s
      else
        let* (imp, tg) := tSplit T l r None tg in
        let nextImp := decrease parentImp imp in
        Ok (if nltb A innerImp nextImp then (next, nextImp, tg) else (innerSplit, innerImp, tg)).

  (** densecatfeature.go:403-487 BestCatSplitIterBig and 503-588 BestCatSplitIter.
      The outer loop runs at most nCats times; [constant] is never assigned. *)
  Definition iter_search (bit : Z -> nat -> bool) (setb : Z -> nat -> Z) (nCats : nat)
      (data cases : list nat) (parentImp : A) (leafSize : nat) (tg : St) : res (Z * A * St) :=
    loop (S nCats) (fun '((best, dec, tg, j) : Z * A * St * nat) =>
      if j <? nCats then
        let* (innerSplit, innerImp, tg) :=
          for_up nCats 0 (iter_step bit setb data cases parentImp leafSize best) (0%Z, dec, tg) in
        if nltb A dec innerImp then Ok (Next (innerSplit, innerImp, tg, S j))
        else Ok (Done (best, dec, tg))
      else Ok (Done (best, dec, tg))) (0%Z, minImp, tg, 0).

  Definition set_tgt (al : allocs St) (tg : St) : allocs St := mkAl (aVals al) (aCat al) tg (aDraw al).

  Definition BestCatSplitIterBig (f : catF) (cases : list nat) (parentImp : A) (leafSize : nat)
      (al : allocs St) : res found :=
    let* (best, dec, tg) := iter_search bigbit (fun z i => Z.setbit z (Z.of_nat i)) (NCats (cMap f))
                              (cData f) cases parentImp leafSize (aTgt al) in
    Ok (mkFound (CBig best) dec false cases (set_tgt al tg)).

  Definition BestCatSplitIter (f : catF) (cases : list nat) (parentImp : A) (leafSize : nat)
      (al : allocs St) : res found :=
    let* (best, dec, tg) := iter_search intbit (fun z i => Z.lor z (shl1 i)) (NCats (cMap f))
                              (cData f) cases parentImp leafSize (aTgt al) in
    Ok (mkFound (CInt best) dec false cases (set_tgt al tg)).

  (** densecatfeature.go:685-716: the two way partition of [cs] together with
      [cached].  [l] is the code's l+1; the next [j] after the code's [j--] is j. *)
  Definition cat_part (bits : Z) (cs : list nat) (cached : list Z)
    : res (list nat * list Z * nat * nat) :=
    loop (S (length cs)) (fun '((cs, cached, l, j, r) : list nat * list Z * nat * nat * nat) =>
      if j <? r then
        let* x := get cached j in
        if negb (Z.land bits x =? 0)%Z then Ok (Next (cs, cached, S l, S j, r))
        else
          let r := r - 1 in
          let* cs := swapl cs j r in
          let* cached := swapl cached j r in
          Ok (Next (cs, cached, l, j, r))
      else Ok (Done (cs, cached, l, r))) (cs, cached, 0, 0, length cs).

  (** densecatfeature.go:657-747, one pass of the loop of BestCatSplit.  State:
      cases, cached, bestSplit, impurityDecrease, constant, target, draws. *)
  Definition cat_step (exhaustive : bool) (parentImp : A) (leafSize : nat) (i : nat)
      (s : list nat * list Z * Z * A * bool * St * nat)
    : res (list nat * list Z * Z * A * bool * St * nat) :=
    let '(cs, cached, best, dec, const, tg, d) := s in
    let '(bits, d) :=
      if exhaustive then (Z.of_nat i, d) else ((Z.of_nat (rnd d) mod 2 ^ 63)%Z, S d) in
    let* (cs, cached, l, r) := cat_part bits cs cached in
    if (l <? leafSize) || (length cs - r <? leafSize) then Ok (cs, cached, best, dec, const, tg, d)
    else
      let* lm := slice cs 0 l in
      let* rm := slice cs r (length cs) in
      let* (imp, tg) := tSplit T lm rm None tg in
      let innerimp := decrease parentImp imp in
      let '(best, dec) := if nltb A dec innerimp then (bits, innerimp) else (best, dec) in
      Ok (cs, cached, best, dec, false, tg, d).

  (** densecatfeature.go:624-626: [cached[i] = 1 << uint(catdata[c])] *)
  Definition load_cats (data cases : list nat) (cached : list Z) : res (list Z) :=
    let* (_, cached) := foreach cases (fun c '((i, cached) : nat * list Z) =>
      let* cat := get data c in
      let* cached := set cached i (shl1 cat) in
      Ok (S i, cached)) (0, cached) in
    Ok cached.

  (** densecatfeature.go:608-752 BestCatSplit *)
  Definition BestCatSplit (f : catF) (cases : list nat) (parentImp : A) (maxEx leafSize : nat)
      (al : allocs St) : res found :=
    let* cached := load_cats (cData f) cases (aCat al) in
    let nCats := NCats (cMap f) in
    let exhaustive := nCats <=? maxEx in
    let n := nparts (if exhaustive then nCats else maxEx) in
    let* (cs, cached, best, dec, const, tg, d) :=
      for_up (n - 1) 1 (cat_step exhaustive parentImp leafSize)
        (cases, cached, 0%Z, minImp, true, aTgt al, aDraw al) in
    Ok (mkFound (CInt best) dec const cs (mkAl (aVals al) cached tg d)).

  (** densecatfeature.go:784-806: the two way partition by category 1. *)
  Definition bin_part (data cs : list nat) : res (list nat * nat * nat) :=
    loop (S (length cs)) (fun '((cs, l, i, r) : list nat * nat * nat * nat) =>
      if i <? r then
        let* c := get cs i in
        let* cat := get data c in
        if cat =? 1 then Ok (Next (cs, S l, S i, r))
        else
          let r := r - 1 in
          let* cs := swapl cs i r in
          Ok (Next (cs, l, i, r))
      else Ok (Done (cs, l, r))) (cs, 0, 0, length cs).

  (** densecatfeature.go:774-831 BestBinSplit *)
  Definition BestBinSplit (f : catF) (cases : list nat) (parentImp : A) (leafSize : nat)
      (al : allocs St) : res found :=
    let* (cs, l, r) := bin_part (cData f) cases in
    if (l <? leafSize) || (length cs - r <? leafSize) then Ok (mkFound (CInt 0) zero true cs al)
    else
      let* lm := slice cs 0 l in
      let* rm := slice cs r (length cs) in
      let* (imp, tg) := tSplit T lm rm None (aTgt al) in
      Ok (mkFound (CInt 1) (decrease parentImp imp) false cs (set_tgt al tg)).

  (** densecatfeature.go:845-923 BestCatSplitBig; [big.Int.Rand(rnd, maxPart)] is
      a draw below maxPart = 2^(nCats-1). *)
  Definition BestCatSplitBig (f : catF) (cases : list nat) (parentImp : A) (maxEx leafSize : nat)
      (al : allocs St) : res found :=
    let nCats := NCats (cMap f) in
    let exhaustive := nCats <=? maxEx in
    let n := nparts (if exhaustive then nCats else maxEx) in
    let* (best, dec, tg, d) :=
      for_up (n - 1) 1 (fun i '((best, dec, tg, d) : Z * A * St * nat) =>
        let '(bits, d) :=
          if exhaustive then (Z.of_nat i, d)
          else ((Z.of_nat (rnd d) mod 2 ^ Z.of_nat (nCats - 1))%Z, S d) in
        let* (l, r) := by_bit (bigbit bits) (cData f) cases in
        if (length l <? leafSize) || (length r <? leafSize) then Ok (best, dec, tg, d)
        else
          let* (imp, tg) := tSplit T l r None tg in
          let innerImp := decrease parentImp imp in
          Ok (if nltb A dec innerImp then (bits, innerImp, tg, d) else (best, dec, tg, d)))
        (0%Z, minImp, aTgt al, aDraw al) in
    Ok (mkFound (CBig best) dec false cases (mkAl (aVals al) (aCat al) tg d)).

  (** featureinterfaces.go:5-7 *)
  Definition maxExhaustiveCats := 5.
  Definition maxNonRandomExahustive := 10.
  Definition maxNonBigCats := 30.

  (** densecatfeature.go:168-228 BestSplit; randomSplit is not used. *)
  Definition cBestSplit (f : catF) (cases : list nat) (parentImp : A) (leafSize : nat)
      (al : allocs St) : res found :=
    let nCats := NCats (cMap f) in
    with_missing (cHas f) (cMissing f) (fun cs p al =>
      if negb (cRandom f) && (maxNonBigCats <? nCats) then BestCatSplitIterBig f cs p leafSize al
      else if negb (cRandom f) && (maxExhaustiveCats <? nCats) then BestCatSplitIter f cs p leafSize al
      else if maxNonBigCats <? nCats then BestCatSplitBig f cs p maxNonRandomExahustive leafSize al
      else if nCats =? 2 then BestBinSplit f cs p leafSize al
      else BestCatSplit f cs p maxNonRandomExahustive leafSize al) cases parentImp al.

  (** Feature.BestSplit (interface dispatch) *)
  Definition BestSplit (f : feature) (cases : list nat) (parentImp : A) (leafSize : nat)
      (randomSplit : bool) (al : allocs St) : res found :=
    match f with
    | FNum f => nBestSplit f cases parentImp leafSize randomSplit al
    | FCat f => cBestSplit f cases parentImp leafSize al
    end.
End Search.
Arguments fCode {A St} _.
Arguments fDec {A St} _.
Arguments fConst {A St} _.
Arguments fCases {A St} _.
Arguments fAl {A St} _.
Arguments mkFound {A St} _ _ _ _ _.
