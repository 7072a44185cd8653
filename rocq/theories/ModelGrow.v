(** Model of the search over features (featurematrix.go BestSplitter) and of the
    growing of one tree (node.go CodedRecurse, tree.go Grow), with the running
    means of utils.go that keep the importance.

    What is simplified: the case list is a value, so the rearrangement of the
    caller's slice by Grow is not returned; the mutex of RunningMean is not
    modelled here (one goroutine). *)
From Verif Require Import Go F64 ModelFeature ModelSplit ModelSample ModelSearch ModelBallot ModelTree.
Local Open Scope nat_scope.
Local Open Scope list_scope.

(** ** utils.go:20-49 RunningMean *)
Record rmean (A : arith) := mkRM { rmMean : A; rmCount : A }.
Arguments mkRM {A} _ _.
Arguments rmMean {A} _.
Arguments rmCount {A} _.

(** utils.go:33-49 WeightedAdd *)
Definition WeightedAdd (A : arith) (val weight : A) (rm : rmean A) : rmean A :=
  if negb (nnan A val) && negb (nnan A weight) then
    mkRM (ndiv A (nadd A (nmul A (rmMean rm) (rmCount rm)) (nmul A weight val)) (nadd A (rmCount rm) weight))
         (nadd A (rmCount rm) weight)
  else rm.
(** utils.go:28-30 Add *)
Definition rmAdd (A : arith) (val : A) (rm : rmean A) : rmean A := WeightedAdd A val (nofZ A 1) rm.
(** utils.go:61-70 NewRunningMeans *)
Definition NewRunningMeans (A : arith) (size : nat) : list (rmean A) :=
  repeat (mkRM (nofZ A 0) (nofZ A 0)) size.

Section Grow.
  Variable A : arith.
  Variable St : Type.
  Variable T : target A St.
  (** target.FindPredicted *)
  Variable predict : list nat -> res string.
  (** allocs.Rnd *)
  Variable rnd : nat -> nat.
  (** allocs.ContrastTarget: its state, CopyInTo from the target, ShuffleCases, and
      the target it is. *)
  Variable K : Type.
  Variable kCopyFrom : K -> K.
  Variable kShuffleCases : (nat -> nat) -> list nat -> K -> res K.
  Variable kTarget : K -> target A St.

  Let zero : A := nofZ A 0.

  (** The parameters of BestSplitter and Grow that do not change. *)
  Record params := mkP {
    pData : list feature;   (* fm.Data *)
    pTry : nat;             (* mTry; a negative one behaves as 0 *)
    pLeaf : nat;            (* leafSize *)
    pForce : bool; pVet : bool; pEvalOob : bool; pExtra : bool;
    pMaxDepth : nat;        (* maxDepth; <= 0 is 0 *)
    pSplitMissing : bool
  }.

  (** The variables of BestSplitter that change: candidates, cases, oob (slices of
      the caller), nConstants, nDrawnConstants, lastSample, (bestFi, bestSplit,
      impurityDecrease), allocs with the contrast target. *)
  Record bstate := mkBS {
    bCans : list nat; bCases : list nat; bOob : list nat;
    bConsts : nat; bDrawn : nat; bLast : nat;
    bFi : nat; bCode : coded; bDec : A;
    bAl : allocs St; bK : K
  }.

  (** featurematrix.go:204-219: the draw of a candidate.  [None] when a known
      constant was drawn. *)
  Definition draw_candidate (s : bstate) : res (bstate * bool) :=
    let lcans := length (bCans s) in
    if bDrawn s + bLast s <? lcans then
      let* k := intn (rnd (aDraw (bAl s))) (lcans - bDrawn s - bLast s) in
      let randi := bLast s + k in
      let al := mkAl (aVals (bAl s)) (aCat (bAl s)) (aTgt (bAl s)) (S (aDraw (bAl s))) in
      if lcans - bConsts s <=? randi then
        Ok (mkBS (bCans s) (bCases s) (bOob s) (bConsts s) (S (bDrawn s)) (bLast s)
                 (bFi s) (bCode s) (bDec s) al (bK s), false)
      else
        let* cans := swapl (bCans s) randi (bLast s) in
        Ok (mkBS cans (bCases s) (bOob s) (bConsts s) (bDrawn s) (bLast s)
                 (bFi s) (bCode s) (bDec s) al (bK s), true)
    else Ok (s, true).

  (** featurematrix.go:231-236 *)
  Definition eval_oob (p : params) (f : feature) (code : coded) (dec inner : A) (oob : list nat) (al : allocs St)
    : res (A * list nat * allocs St) :=
    if pEvalOob p && nltb A dec inner then
      let* sp := fSplit f code oob in
      let* (imp, tg) := tImp T (srCases sp) (aTgt al) in
      let* (simp, tg) := tSplit T (srL sp) (srR sp) (Some (srM sp)) tg in
      Ok (nsub A imp simp, srCases sp, set_tgt St al tg)
    else Ok (inner, oob, al).

  (** featurematrix.go:237-247.  ShuffleCases draws once per case. *)
  Definition vet_split (p : params) (f : feature) (parentImp dec inner : A) (cases oob : list nat)
      (al : allocs St) (k : K) : res (A * list nat * list nat * allocs St * K) :=
    if pVet p && nltb A dec inner then
      let casept := if pEvalOob p then oob else cases in
      let* k := kShuffleCases (fun j => rnd (aDraw al + j)) casept k in
      let al := mkAl (aVals al) (aCat al) (aTgt al) (aDraw al + length casept) in
      let* r := BestSplit A St (kTarget k) rnd f casept parentImp (pLeaf p) (pExtra p) al in
      let inner := nsub A inner (fDec r) in
      Ok (if pEvalOob p then (inner, cases, fCases r, fAl r, k) else (inner, fCases r, oob, fAl r, k))
    else Ok (inner, cases, oob, al, k).

  (** featurematrix.go:220-253: the evaluation of the candidate at [lastSample]. *)
  Definition try_candidate (p : params) (parentImp : A) (s : bstate) : res bstate :=
    let lcans := length (bCans s) in
    let* i := get (bCans s) (bLast s) in
    let* f := get (pData p) i in
    let* r := BestSplit A St T rnd f (bCases s) parentImp (pLeaf p) (pExtra p) (bAl s) in
    let* (cans, nc, dc, last) :=
      (if fConst r then
         let nc := S (bConsts s) in
         let* cans := swapl (bCans s) (lcans - nc) (bLast s) in
         Ok (cans, nc, S (bDrawn s), bLast s)
       else Ok (bCans s, bConsts s, bDrawn s, S (bLast s))) in
    let* (inner, oob, al) := eval_oob p f (fCode r) (bDec s) (fDec r) (bOob s) (fAl r) in
    let* (inner, cases, oob, al, k) := vet_split p f parentImp (bDec s) inner (fCases r) oob al (bK s) in
    Ok (if nltb A (bDec s) inner
        then mkBS cans cases oob nc dc last i (fCode r) inner al k
        else mkBS cans cases oob nc dc last (bFi s) (bCode s) (bDec s) al k).

  (** featurematrix.go:190-254, the loop.  j stays below max(mTry, len(candidates)) + 2. *)
  Definition splitter_loop (p : params) (parentImp : A) (s : bstate) : res bstate :=
    loop (pTry p + length (bCans s) + 2) (fun '((j, s) : nat * bstate) =>
      if (pForce p && (pTry p <=? j) && (j <=? bDrawn s)) || (j <? pTry p) then
        if length (bCans s) <=? bConsts s then Ok (Done s)
        else
          let* (s, evaluate) := draw_candidate s in
          if evaluate then
            let* s := try_candidate p parentImp s in
            Ok (Next (S j, s))
          else Ok (Next (S j, s))
      else Ok (Done s)) (0, s).

  (** featurematrix.go:148-262 BestSplitter *)
  Definition BestSplitter (p : params) (cases cans oob : list nat) (nConstantsBefore : nat)
      (al : allocs St) (k : K) : res bstate :=
    let k := if pVet p then kCopyFrom k else k in
    let* (parentImp, tg) := tImp T cases (aTgt al) in
    let s := mkBS cans cases oob nConstantsBefore 0 0 0 CNil (minImp A) (set_tgt St al tg) k in
    if nleb A parentImp (minImp A) && nleb A zero parentImp then Ok s
    else splitter_loop p parentImp s.

  (** What Grow's closure shares between nodes: candidates, oob, allocs with the
      contrast target, importance and depthUsed. *)
  Record gstate := mkG {
    gCans : list nat; gOob : list nat; gAl : allocs St; gK : K;
    gImp : option (list (rmean A)); gDepth : option (list nat)
  }.

  (** tree.go:143-148 *)
  Definition book (fi depth : nat) (dec : A) (imp : option (list (rmean A))) (du : option (list nat))
    : res (option (list (rmean A)) * option (list nat)) :=
    let* imp := match imp with
                | Some l => let* rm := get l fi in let* l := set l fi (rmAdd A dec rm) in Ok (Some l)
                | None => Ok None
                end in
    let* du := match du with
               | Some l => let* d := get l fi in
                           if (d =? 0) || (depth <? d) then let* l := set l fi depth in Ok (Some l)
                           else Ok (Some l)
               | None => Ok None
               end in
    Ok (imp, du).

  (** What the closure does to the node (its own fields and its children), and what
      it returns: fi, split, nconstants; and the rearranged cases. *)
  Record visited := mkV {
    gvD : nd; gvL : node; gvR : node; gvM : node;
    gvFi : nat; gvSplit : coded; gvConsts : nat; gvCases : list nat
  }.

  (** tree.go:126-175, the closure of Grow *)
  Definition grow_visit (p : params) (d : nd) (l r m : node) (cases : list nat) (depth ncb : nat) (g : gstate)
    : res (visited * gstate) :=
    let leaf (fi : nat) (nc : nat) (cases : list nat) (g : gstate) :=
      let* pred := predict cases in
      Ok (mkV (mkNd CNil (dFeat d) pred None) l r m fi CNil nc cases, g) in
    if ((depth <? pMaxDepth p) || (pMaxDepth p <=? 0)) && (2 * pLeaf p <=? length cases) then
      let* b := BestSplitter p cases (gCans g) (gOob g) ncb (gAl g) (gK g) in
      let g := mkG (bCans b) (bOob b) (bAl b) (bK b) (gImp g) (gDepth g) in
      if isCNil (bCode b) then leaf (bFi b) (bConsts b) (bCases b) g
      else
        let* (imp, du) := book (bFi b) depth (bDec b) (gImp g) (gDepth g) in
        let* f := get (pData p) (bFi b) in
        let* spl := fDecodeSplit f (bCode b) in
        let fresh := isNil l || isNil r in
        Ok (mkV (mkNd (bCode b) (bFi b) EmptyString (Some spl))
                (if fresh then newNode else l) (if fresh then newNode else r)
                (if pSplitMissing p then newNode else m)
                (bFi b) (bCode b) (bConsts b) (bCases b),
            mkG (gCans g) (gOob g) (gAl g) (gK g) imp du)
    else leaf 0 ncb cases g.

  (** node.go:74-88 CodedRecurse with the closure of Grow. *)
  Fixpoint grow_node (fuel : nat) (p : params) (n : node) (cases : list nat) (depth ncb : nat) (g : gstate)
    : res (node * gstate) :=
    match fuel with
    | O => Spin
    | S fuel =>
        match n with
        | Nil => Panic
        | Node d l r m =>
            let* (v, g) := grow_visit p d l r m cases depth ncb g in
            if isCNil (gvSplit v) then Ok (Node (gvD v) (gvL v) (gvR v) (gvM v), g)
            else
              let* f := get (pData p) (gvFi v) in
              let* (cs, li, ri) := fSplitPoints f (gvSplit v) (gvCases v) in
              let* lc := slice cs 0 li in
              let* (l', g) := grow_node fuel p (gvL v) lc (S depth) (gvConsts v) g in
              let* rc := slice cs ri (length cs) in
              let* (r', g) := grow_node fuel p (gvR v) rc (S depth) (gvConsts v) g in
              let* (m', g) :=
                (if negb (li =? ri) && negb (isNil (gvM v)) then
                   let* mc := slice cs li ri in
                   grow_node fuel p (gvM v) mc (S depth) (gvConsts v) g
                 else Ok (gvM v, g)) in
              Ok (Node (gvD v) l' r' m', g)
        end
    end.

  (** tree.go:96-176 Grow *)
  Definition Grow (fuel : nat) (p : params) (root : node) (cases : list nat) (g : gstate) : res (node * gstate) :=
    grow_node fuel p root cases 0 0 g.
End Grow.
