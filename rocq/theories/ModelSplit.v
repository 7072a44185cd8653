(** Model of the in-place three way splits of case lists. *)
From Verif Require Import Go F64 ModelFeature.

(** The loop shared by splitter.go:36-61, densenumfeature.go:129-154 and
    176-202, densecatfeature.go:264-284 and 330-351.  [miss] and [left] are the
    two tests of the loop body, [ll] is [lastleft+1].  The loop counter of the
    next iteration is [i-1+1 = i] where the code executes [i--]. *)
Definition split_loop (miss left : nat -> res bool) (cases : list nat)
  : res (list nat * nat * nat) :=
  let n := length cases in
  loop (S (3 * n)) (fun '(cs, i, ll, lr) =>
    if i <? lr then
      let* c := get cs i in
      let* m := miss c in
      if m then Ok (Next (cs, S i, ll, lr))
      else
        let* l := left c in
        if l then
          if i =? ll then Ok (Next (cs, S i, S ll, lr))
          else let* cs' := swapl cs i ll in Ok (Next (cs', i, S ll, lr))
        else
          let* cs' := swapl cs i (lr - 1) in Ok (Next (cs', i, ll, lr - 1))
    else Ok (Done (cs, ll, lr))) (cases, 0, 0, n).

(** Coded splits: [interface{}] holding a float64, an int, a *big.Int or nil. *)
Inductive coded := CNum (x : f64) | CInt (z : Z) | CBig (z : Z) | CNil.

(** [0 != (cat & (1 << uint(j)))] on 64 bit ints: [1 << j] is 0 for j >= 64;
    [cat] is the signed value of the int. *)
Definition intbit (cat : Z) (j : nat) : bool := (j <? 64) && Z.testbit cat (Z.of_nat j).

(** [0 != bigCat.Bit(j)] *)
Definition bigbit (cat : Z) (j : nat) : bool := Z.testbit cat (Z.of_nat j).

(** densecatfeature.go:239-257 and 303-325: the closure GoesLeft.  For any
    other type of coded split the function value is nil and calling it
    panics. *)
Definition cLeftCoded (f : catF) (code : coded) (i : nat) : res bool :=
  match code with
  | CInt z => let* c := get (cData f) i in Ok (intbit z c)
  | CBig z => let* c := get (cData f) i in Ok (bigbit z c)
  | _ => Panic
  end.

(** [f.HasMissing && f.IsMissing(c)] *)
Definition missq (has : bool) (ms : list bool) (c : nat) : res bool :=
  if has then get ms c else Ok false.

(** The three slices [cases[:lastleft+1]], [cases[lastright:]] and
    [cases[lastleft+1:lastright]] (splitter.go:63-65 and its copies), together
    with the rearranged case list. *)
Record splitres := mkSR { srCases : list nat; srL : list nat; srR : list nat; srM : list nat }.
Definition cut3 (x : list nat * nat * nat) : res splitres :=
  let '(cs, ll, lr) := x in
  let* l := slice cs 0 ll in
  let* r := slice cs lr (length cs) in
  let* m := slice cs ll lr in
  Ok (mkSR cs l r m).

(** densenumfeature.go:118-161 Split.  The type assertion panics for other
    codes. *)
Definition nSplit (f : numF) (code : coded) (cases : list nat) : res splitres :=
  match code with
  | CNum split =>
      let* x := split_loop (missq (nHas f) (nMissing f))
                  (fun c => let* v := get (nData f) c in Ok (fleb v split)) cases in
      cut3 x
  | _ => Panic
  end.

(** densenumfeature.go:164-206 SplitPoints: rearranged cases and the pair
    returned. *)
Definition nSplitPoints (f : numF) (code : coded) (cases : list nat) : res (list nat * nat * nat) :=
  match code with
  | CNum split =>
      split_loop (missq (nHas f) (nMissing f))
        (fun c => let* v := get (nData f) c in Ok (fleb v split)) cases
  | _ => Panic
  end.

(** densecatfeature.go:230-291 Split *)
Definition cSplit (f : catF) (code : coded) (cases : list nat) : res splitres :=
  let* x := split_loop (missq (cHas f) (cMissing f)) (cLeftCoded f code) cases in
  cut3 x.

(** densecatfeature.go:295-355 SplitPoints *)
Definition cSplitPoints (f : catF) (code : coded) (cases : list nat) : res (list nat * nat * nat) :=
  split_loop (missq (cHas f) (cMissing f)) (cLeftCoded f code) cases.

(** densenumfeature.go:211-216 DecodeSplit *)
Definition nDecodeSplit (f : numF) (code : coded) : res splitter :=
  match code with
  | CNum x => Ok (mkSpl (nName f) true x [])
  | _ => Panic
  end.

(** densecatfeature.go:360-386 DecodeSplit.  The keys are added in increasing
    order of their number. *)
Definition decode_left (bit : nat -> bool) (back : list string) : list string :=
  map snd (filter (fun p => bit (fst p)) (combine (seq 0 (length back)) back)).
Definition cDecodeSplit (f : catF) (code : coded) : splitter :=
  let left :=
    match code with
    | CInt z => decode_left (intbit z) (cmBack (cMap f))
    | CBig z => decode_left (bigbit z) (cmBack (cMap f))
    | _ => []
    end in
  mkSpl (cName f) false f0 left.

Definition fSplit (f : feature) (code : coded) (cases : list nat) : res splitres :=
  match f with FNum f => nSplit f code cases | FCat f => cSplit f code cases end.
Definition fSplitPoints (f : feature) (code : coded) (cases : list nat) : res (list nat * nat * nat) :=
  match f with FNum f => nSplitPoints f code cases | FCat f => cSplitPoints f code cases end.
Definition fDecodeSplit (f : feature) (code : coded) : res splitter :=
  match f with FNum f => nDecodeSplit f code | FCat f => Ok (cDecodeSplit f code) end.

(** splitter.go:24-68 Splitter.Split with the feature [f] already looked up. *)
Definition splSplitF (f : feature) (s : splitter) (cases : list nat) : res splitres :=
  let* x := split_loop (fun c => if fMissingVals f then fIsMissing f c else Ok false)
              (fun c => fGoesLeft f c s) cases in
  cut3 x.

(** splitter.go:31 [fm.Data[fm.Map[s.Feature]]]: an unknown name yields the
    zero value of the map, so column 0. *)
Definition fmLookup (fm : fmatrix) (name : string) : res feature :=
  get (fmData fm) (match assoc name (fmMap fm) with Some i => i | None => 0 end).

(** splitter.go:24-68 Splitter.Split *)
Definition splSplit (fm : fmatrix) (s : splitter) (cases : list nat) : res splitres :=
  let* f := fmLookup fm (sFeature s) in
  splSplitF f s cases.
