(** Model of the random parts: Shuffle, ShuffleCases and sampeling.go.

    The pseudo random source is an oracle [rnd : nat -> nat]; the k-th call
    [rand.Intn(n)] of the function modelled answers [rnd k mod n]
    and panics for [n = 0] (Go documents the panic for n <= 0). *)
From Verif Require Import Go F64 ModelFeature.
Local Open Scope nat_scope.
Local Open Scope list_scope.

(** [rand.Intn(n)] on the oracle's answer [r]. *)
Definition intn (r n : nat) : res nat := if n =? 0 then Panic else Ok (r mod n).

(** The exchange of entries [i] and [j] of both the missing mask and the data,
    densecatfeature.go:1151-1157 = densenumfeature.go:598-604. *)
Definition swap2 {A} (i j : nat) (st : list bool * list A) : res (list bool * list A) :=
  let (ms, d) := st in
  let* ms' := swapl ms i j in
  let* d' := swapl d i j in
  Ok (ms', d').

(** densecatfeature.go:1146-1161 and densenumfeature.go:593-608 Shuffle, on the
    pair (Missing, CatData) or (Missing, NumData). *)
Definition shuffle {A} (rnd : nat -> nat) (ms : list bool) (d : list A)
  : res (list bool * list A) :=
  let capacity := length ms in
  for_up capacity 0 (fun j st =>
    let* r := intn (rnd j) (capacity - j) in
    swap2 j (j + r) st) (ms, d).

(** densecatfeature.go:1164-1181 and densenumfeature.go:611-628 ShuffleCases *)
Definition shuffleCases {A} (rnd : nat -> nat) (cases : list nat) (ms : list bool) (d : list A)
  : res (list bool * list A) :=
  let capacity := length cases in
  for_up capacity 0 (fun j st =>
    let* targeti := get cases j in
    let* r := intn (rnd j) (capacity - j) in
    let* sourcei := get cases (j + r) in
    swap2 targeti sourcei st) (ms, d).

(** The methods on the two kinds of feature. *)
Definition cShuffle (rnd : nat -> nat) (f : catF) : res catF :=
  let* (ms, d) := shuffle rnd (cMissing f) (cData f) in
  Ok (mkCat (cMap f) d ms (cName f) (cRandom f) (cHas f)).
Definition nShuffle (rnd : nat -> nat) (f : numF) : res numF :=
  let* (ms, d) := shuffle rnd (nMissing f) (nData f) in
  Ok (mkNum d ms (nName f) (nHas f)).
Definition cShuffleCases (rnd : nat -> nat) (cases : list nat) (f : catF) : res catF :=
  let* (ms, d) := shuffleCases rnd cases (cMissing f) (cData f) in
  Ok (mkCat (cMap f) d ms (cName f) (cRandom f) (cHas f)).
Definition nShuffleCases (rnd : nat -> nat) (cases : list nat) (f : numF) : res numF :=
  let* (ms, d) := shuffleCases rnd cases (nMissing f) (nData f) in
  Ok (mkNum d ms (nName f) (nHas f)).
(** densecatfeature.go:1185-1191, densenumfeature.go:632-638 ShuffledCopy *)
Definition cShuffledCopy (rnd : nat -> nat) (f : catF) : res catF :=
  let* g := cShuffle rnd (cCopy f) in
  Ok (mkCat (cMap g) (cData g) (cMissing g) (cName g ++ ":SHUFFLED")%string (cRandom g) (cHas g)).
Definition nShuffledCopy (rnd : nat -> nat) (f : numF) : res numF :=
  let* g := nShuffle rnd (nCopy f) in
  Ok (mkNum (nData g) (nMissing g) (nName g ++ ":SHUFFLED")%string (nHas g)).

(** sampeling.go:19-32 NewBalancedSampler: the field Cases. *)
Definition newBalanced (f : catF) : res (list (list nat)) :=
  for_up (length (cData f)) 0 (fun i cs =>
    let* v := get (cData f) i in
    let* m := cIsMissing f i in
    if m then Ok cs
    else
      let* l := get cs v in
      set cs v (l ++ [i])) (repeat [] (NCats (cMap f))).

(** sampeling.go:35-44 Sample.  Draws 2i and 2i+1 belong to sample i. *)
Definition balancedSample (cs : list (list nat)) (rnd : nat -> nat) (n : nat) : res (list nat) :=
  for_up n 0 (fun i samples =>
    let* c := intn (rnd (2 * i)) (length cs) in
    let* l := get cs c in
    let* k := intn (rnd (2 * i + 1)) (length l) in
    let* s := get l k in
    Ok (samples ++ [s])) [].

(** sampeling.go:48-52 SecondaryBalancedSampler *)
Record secondary := mkSec {
  secTotal : nat;
  secCounts : list nat;
  secSamplers : list (list (list nat))
}.

(** sampeling.go:55-78 NewSecondaryBalancedSampler *)
Definition newSecondary (target balanceby : catF) : res secondary :=
  for_up (cLength target) 0 (fun i s =>
    let* m1 := cIsMissing target i in
    if m1 then Ok s
    else
    let* m2 := cIsMissing balanceby i in
    if m2 then Ok s
    else
      let* bc := cGeti balanceby i in
      let* tc := cGeti target i in
      let* n := get (secCounts s) bc in
      let* counts := set (secCounts s) bc (n + 1) in
      let* row := get (secSamplers s) bc in
      let* cell := get row tc in
      let* row' := set row tc (cell ++ [i]) in
      let* ss := set (secSamplers s) bc row' in
      Ok (mkSec (secTotal s + 1) counts ss))
    (mkSec 0 (repeat 0 (NCats (cMap balanceby)))
       (repeat (repeat [] (NCats (cMap target))) (NCats (cMap balanceby)))).

(** sampeling.go:87-93: the walk along Counts.  [b] is an int that may become
    negative.  If Counts is empty the loop body never runs and b stays. *)
Fixpoint walk (counts : list nat) (j : nat) (len : nat) (b : Z) : Z :=
  match counts with
  | [] => b
  | v :: counts' =>
      let b' := (b - Z.of_nat v)%Z in
      if ((b' <? 0)%Z || (j =? len - 1))%bool then Z.of_nat j
      else walk counts' (S j) len b'
  end.

(** sampeling.go:80-99 Sample.  Draws 3i, 3i+1 and 3i+2 belong to sample i. *)
Definition secondarySample (s : secondary) (rnd : nat -> nat) (n : nat) : res (list nat) :=
  for_up n 0 (fun i samples =>
    let* r := intn (rnd (3 * i)) (secTotal s) in
    let b := walk (secCounts s) 0 (length (secCounts s)) (Z.of_nat r) in
    let* row := getZ (secSamplers s) b in
    let* c := intn (rnd (3 * i + 1)) (length row) in
    let* l := get row c in
    let* k := intn (rnd (3 * i + 2)) (length l) in
    let* x := get l k in
    Ok (samples ++ [x])) [].

(** sampeling.go:107-133 SampleFirstN.  The number of constants may not exceed
    the length in [nnonconstant], which is an int: it is computed in Z.  The
    result is the deck and [lastSample]; [*samples = cards[:lastSample]].  The
    index of the draw of round i is i. *)
Record sfn := mkSFN { sfnCards : list nat; sfnLast : nat; sfnDrawn : nat }.
Fixpoint sampleFirstN_loop (rnd : nat -> nat) (n len nconstants : nat) (fuel i : nat) (s : sfn)
  : res sfn :=
  let nnonconstant := (Z.of_nat len - Z.of_nat nconstants)%Z in
  if (i <? n) && (Z.of_nat i <? nnonconstant)%Z then
    match fuel with
    | O => Spin
    | S fuel' =>
        let range := (Z.of_nat len - Z.of_nat (sfnDrawn s) - Z.of_nat (sfnLast s))%Z in
        let* r := (if (range <=? 0)%Z then Panic else intn (rnd i) (Z.to_nat range)) in
        let randi := sfnLast s + r in
        if (nnonconstant <=? Z.of_nat randi)%Z then
          sampleFirstN_loop rnd n len nconstants fuel' (S i)
            (mkSFN (sfnCards s) (sfnLast s) (S (sfnDrawn s)))
        else
          let* cards := swapl (sfnCards s) (sfnLast s) randi in
          sampleFirstN_loop rnd n len nconstants fuel' (S i)
            (mkSFN cards (S (sfnLast s)) (sfnDrawn s))
    end
  else Ok s.
Definition SampleFirstN (rnd : nat -> nat) (deck : list nat) (n nconstants : nat)
  : res (list nat * list nat) :=
  let* s := sampleFirstN_loop rnd n (length deck) nconstants n 0 (mkSFN deck 0 0) in
  let* samples := slice (sfnCards s) 0 (sfnLast s) in
  Ok (sfnCards s, samples).

(** sampeling.go:139-145 SampleWithReplacment *)
Definition SampleWithReplacment (rnd : nat -> nat) (nSamples totalCases : nat) : res (list nat) :=
  for_up nSamples 0 (fun i cases =>
    let* r := intn (rnd i) totalCases in
    Ok (cases ++ [r])) [].

(** growforest/growforest.go:630-635: bagging by rejection.  The loop
    condition is [len(cases) < nSamples]; [j] only counts the draws. *)
Definition bag (rnd : nat -> nat) (f : feature) (nCases nSamples fuel : nat) : res (list nat) :=
  loop fuel (fun '((j, cases) : nat * list nat) =>
    if length cases <? nSamples then
      let* r := intn (rnd j) nCases in
      let* m := fIsMissing f r in
      Ok (Next (S j, if m then cases else cases ++ [r]))
    else Ok (Done cases)) (0, []).

(** growforest/growforest.go:651-662: the out of bag cases. *)
Definition oob_list (nCases : nat) (cases : list nat) : res (list nat) :=
  let* ib := foreach cases (fun v ib => set ib v true) (repeat false nCases) in
  for_up nCases 0 (fun i oob =>
    let* v := get ib i in
    Ok (if v then oob else oob ++ [i])) [].

(** growforest/growforest.go:605-611: the case list of a worker with -nobag;
    the bound is the number of non-missing cases, not the number of cases. *)
Definition nobag_initial (f : feature) (nNonMissing : nat) : res (list nat) :=
  for_up nNonMissing 0 (fun i cases =>
    let* m := fIsMissing f i in
    Ok (if m then cases else cases ++ [i])) [].

(** growforest/growforest.go:640-649: the resampling done only when
    [nSamples != nCases]. *)
Definition nobag_cases (rnd : nat -> nat) (f : feature) (nCases nNonMissing nSamples : nat)
  : res (list nat) :=
  let* initial := nobag_initial f nNonMissing in
  if nSamples =? nCases then Ok initial
  else
    let* all := for_up nCases 0 (fun i cases =>
      let* m := fIsMissing f i in
      Ok (if m then cases else cases ++ [i])) [] in
    let* (deck, samples) := SampleFirstN rnd all nSamples 0 in
    Ok samples.

(** growforest/growforest.go:355-362: counting the usable cases. *)
Definition count_nonmissing (f : feature) (nCases : nat) : res nat :=
  for_up nCases 0 (fun i n => let* m := fIsMissing f i in Ok (if m then n else n + 1)) 0.
