(** Model of the nodes and trees of node.go and tree.go, of the traversals
    Climb and Recurse and of the functions built on them, and of the scikit
    export.

    A tree is a value of [node]; [Nil] is the nil pointer.  Nodes shared
    between several parents (only GrowJungle makes them) are not covered. *)
From Verif Require Import Go F64 ModelFeature ModelSplit ModelBallot.
Local Open Scope nat_scope.
Local Open Scope list_scope.

(** node.go:16-24 Node, the fields that are not pointers to nodes.  A nil
    CodedSplit is [CNil]. *)
Record nd := mkNd {
  dCode : coded;
  dFeat : nat;
  dPred : string;
  dSpl : option splitter
}.
Inductive node := Nil | Node (d : nd) (l r m : node).

Definition isNil (n : node) : bool := match n with Nil => true | _ => false end.
Definition isCNil (c : coded) : bool := match c with CNil => true | _ => false end.

(** new(Node) *)
Definition newNode : node := Node (mkNd CNil 0 EmptyString None) Nil Nil Nil.

(** node.go:27-38 Climb, for functions that read and write the fields of the
    node but not its three pointers (all uses in /repo: tree.go:67-72,
    leafcount.go:83-105).  Calling Climb on a nil pointer never happens inside; at the
    top it panics (the callbacks dereference the node). *)
Fixpoint climb {St} (c : nd -> St -> nd * St) (n : node) (s : St) : node * St :=
  match n with
  | Nil => (Nil, s)
  | Node d l r m =>
      let (d', s0) := c d s in
      let (l', s1) := climb c l s0 in
      let (r', s2) := climb c r s1 in
      let (m', s3) := climb c m s2 in
      (Node d' l' r' m', s3)
  end.
Definition Climb {St} (c : nd -> St -> nd * St) (n : node) (s : St) : res (node * St) :=
  match n with Nil => Panic | _ => Ok (climb c n s) end.

(** tree.go:66-73 StripCodes *)
Definition StripCodes (n : node) : res node :=
  let* (n', _) := Climb (fun d (u : unit) =>
    (if isCNil (dCode d) then d else mkNd CNil (dFeat d) (dPred d) (dSpl d), u)) n tt in
  Ok n'.

(** One call of the function given to Recurse: the node, the slice of cases as
    a window of the underlying array and its content at that time, the depth. *)
Record visit := mkVisit {
  vNode : node; vLo : nat; vHi : nat; vCases : list nat; vDepth : nat
}.

(** node.go:56-63: how the cases of a node are split; [None] for the default
    branch. *)
Definition node_split (fm : fmatrix) (d : nd) (cases : list nat) : res (option splitres) :=
  if negb (isCNil (dCode d)) then
    let* f := get (fmData fm) (dFeat d) in
    let* r := fSplit f (dCode d) cases in Ok (Some r)
  else
    match dSpl d with
    | Some s => let* r := splSplit fm s cases in Ok (Some r)
    | None => Ok None
    end.

(** node.go:53-72 Recurse.  [arr] is the array underlying all case slices; the
    slice [cases] is its window [lo, hi); splitting rearranges the window in
    place.  The state [St] is what the closure [r] captures. *)
Fixpoint Recurse {St} (r : visit -> St -> res St) (fm : fmatrix) (n : node)
    (arr : list nat) (lo hi depth : nat) (st : St) : res (list nat * St) :=
  match n with
  | Nil => Panic
  | Node d nl nr nm =>
      let* cases := slice arr lo hi in
      let* st0 := r (mkVisit n lo hi cases depth) st in
      let* o := node_split fm d cases in
      match o with
      | None => Ok (arr, st0)
      | Some sr =>
          let arr0 := putwin arr lo (srCases sr) in
          let a := lo + length (srL sr) in
          let b := a + length (srM sr) in
          let* (arr1, st1) := Recurse r fm nl arr0 lo a (S depth) st0 in
          let* (arr2, st2) := Recurse r fm nr arr1 b hi (S depth) st1 in
          if (0 <? length (srM sr)) && negb (isNil nm)
          then Recurse r fm nm arr2 a b (S depth) st2
          else Ok (arr2, st2)
      end
  end.

(** The test [n.Left == nil && n.Right == nil] of tree.go:351, 377, 416. *)
Definition isLeaf (n : node) : res bool :=
  match n with
  | Nil => Panic
  | Node _ l r _ => Ok (isNil l && isNil r)
  end.

(** tree.go:345-349, 369-373, 399-403: [cases] is 0..n-1 with
    [n = fm.Data[0].Length()]. *)
Definition allcases (fm : fmatrix) : res (list nat) :=
  let* f := get (fmData fm) 0 in Ok (seq 0 (fLength f)).

(** tree.go:389-392 Leaf; [Cases] is a window of the case array. *)
Record leaf := mkLeaf { lfLo : nat; lfHi : nat; lfPred : string }.
Definition node_pred (n : node) : string := match n with Node d _ _ _ => dPred d | Nil => EmptyString end.
Definition node_spl (n : node) : option splitter := match n with Node d _ _ _ => dSpl d | Nil => None end.

(** The calls [counter.Add(i, j, val)] made on a SparseCounter so far
    (ModelBallot.v models the counter itself and goroutines sharing it). *)
Definition addcalls := list (nat * nat * Z).

(** tree.go:340-361 GetLeaves.  The counter [fbycase] may be nil.  Result: the
    case array after the traversal, the leaves and the counter. *)
Definition fmIndex (fm : fmatrix) (name : string) : nat :=
  match assoc name (fmMap fm) with Some i => i | None => 0 end.
Definition GetLeaves (fm : fmatrix) (root : node) (fbycase : option addcalls)
  : res (list nat * (list leaf * option addcalls)) :=
  let* cases := allcases fm in
  Recurse (fun v '((leaves, cnt) : list leaf * option addcalls) =>
    let* lf := isLeaf (vNode v) in
    let leaves' := if lf then leaves ++ [mkLeaf (vLo v) (vHi v) (node_pred (vNode v))] else leaves in
    match cnt, node_spl (vNode v) with
    | Some m, Some s =>
        Ok (leaves', Some (m ++ map (fun c => (c, fmIndex fm (sFeature s), 1%Z)) (vCases v)))
    | _, _ => Ok (leaves', cnt)
    end) fm root cases 0 (length cases) 0 ([], fbycase).

(** tree.go:364-385 Partition *)
Definition TreePartition (fm : fmatrix) (root : node)
  : res (list nat * (list (nat * nat) * list string)) :=
  let* cases := allcases fm in
  Recurse (fun v '((leaves, preds) : list (nat * nat) * list string) =>
    let* lf := isLeaf (vNode v) in
    Ok (if lf then (leaves ++ [(vLo v, vHi v)], preds ++ [node_pred (vNode v)])
        else (leaves, preds))) fm root cases 0 (length cases) 0 ([], []).

(** tree.go:407-424 VoteCases.  The ballot box is the list of the calls
    [bb.Vote(case, pred, weight)] made so far. *)
Definition ballots := list (nat * string * f64).
Definition VoteCases (fm : fmatrix) (root : node) (tweight : f64) (cases : list nat) (bb : ballots)
  : res (list nat * ballots) :=
  let weight := if fleb f0 tweight then tweight else f1 in
  Recurse (fun v bb =>
    let* lf := isLeaf (vNode v) in
    if lf then
      for_up (length (vCases v)) 0 (fun i bb =>
        let* c := get (vCases v) i in Ok (bb ++ [(c, node_pred (vNode v), weight)])) bb
    else Ok bb) fm root cases 0 (length cases) 0 bb.

(** tree.go:394-403 Vote *)
Definition TreeVote (fm : fmatrix) (root : node) (tweight : f64) (bb : ballots)
  : res (list nat * ballots) :=
  let* cases := allcases fm in VoteCases fm root tweight cases bb.

(** leafcount.go:71-81: the calls counts.Add for the leaves of one tree; the
    leaf slices are read after GetLeaves has returned. *)
Definition leaf_adds (arr : list nat) (m : addcalls) (leaves : list leaf) : res addcalls :=
  foreach leaves (fun lf m =>
    let* cs := slice arr (lfLo lf) (lfHi lf) in
    for_up (length cs) 0 (fun j m =>
      for_up (length cs) 0 (fun k m =>
        let* a := get cs j in
        let* b := get cs k in
        Ok (m ++ [(a, b, 1%Z)])) m) m) m.
(** leafcount.go:69-81: all trees of one forest. *)
Definition leafcount (fm : fmatrix) (trees : list node) (m : addcalls) (br : option addcalls)
  : res (addcalls * option addcalls) :=
  foreach trees (fun t '((m, br) : addcalls * option addcalls) =>
    let* (arr, (leaves, br')) := GetLeaves fm t br in
    let* m' := leaf_adds arr m leaves in Ok (m', br')) (m, br).

(** ** sklearn_tree.go *)

(** sklearn_tree.go:17-25 ScikitNode, the fields that are set. *)
Record sknode := mkSk { skLeft : Z; skRight : Z; skFeat : nat; skThr : f64 }.
(** sklearn_tree.go:47-58 ScikitTree *)
Record sktree := mkSkt { skDepth : nat; skCount : nat; skCap : nat; skNodes : list sknode }.

(** sklearn_tree.go:60-74 NewScikitTree (the remaining fields are constants). *)
Definition NewScikitTree : sktree := mkSkt 0 0 0 [].

(** sklearn_tree.go:78-103 BuildScikitTree *)
Fixpoint BuildScikitTree (depth : nat) (n : node) (t : sktree) : res sktree :=
  match n with
  | Nil => Panic
  | Node d l r m =>
      let pos := length (skNodes t) in
      let t0 := mkSkt (if skDepth t <? depth then depth else skDepth t) (S (skCount t)) (S (skCap t))
                      (skNodes t ++ [mkSk 0 0 0 f0]) in
      match dSpl d with
      | Some s =>
          let* ns1 := set (skNodes t0) pos (mkSk (Z.of_nat (skCount t0)) 0 (dFeat d) (sValue s)) in
          let* t1 := BuildScikitTree (S depth) l (mkSkt (skDepth t0) (skCount t0) (skCap t0) ns1) in
          let* x := get (skNodes t1) pos in
          let* ns2 := set (skNodes t1) pos (mkSk (skLeft x) (Z.of_nat (skCount t1)) (skFeat x) (skThr x)) in
          BuildScikitTree (S depth) r (mkSkt (skDepth t1) (skCount t1) (skCap t1) ns2)
      | None =>
          let* ns := set (skNodes t0) pos (mkSk (-1) (-1) 0 f0) in
          Ok (mkSkt (skDepth t0) (skCount t0) (skCap t0) ns)
      end
  end.

(** ** AddNode on a heap of nodes *)

(** The heap is a list of nodes, pointers are indices, nil is [None]. *)
Record hnode := mkH { hPred : string; hSpl : option splitter;
                      hL : option nat; hR : option nat; hM : option nat }.

(** tree.go:42-58: one character of the path; [n] is the new node. *)
Definition add_step (c : ascii) (n : nat) (h : list hnode) (loc : nat) : res (list hnode * nat) :=
  let* x := get h loc in
  if Ascii.eqb c "L" then
    match hL x with
    | None => let* h' := set h loc (mkH (hPred x) (hSpl x) (Some n) (hR x) (hM x)) in Ok (h', n)
    | Some k => Ok (h, k)
    end
  else if Ascii.eqb c "R" then
    match hR x with
    | None => let* h' := set h loc (mkH (hPred x) (hSpl x) (hL x) (Some n) (hM x)) in Ok (h', n)
    | Some k => Ok (h, k)
    end
  else if Ascii.eqb c "M" then
    match hM x with
    | None => let* h' := set h loc (mkH (hPred x) (hSpl x) (hL x) (hR x) (Some n)) in Ok (h', n)
    | Some k => Ok (h, k)
    end
  else Ok (h, loc).
Fixpoint add_walk (path : string) (n : nat) (h : list hnode) (loc : nat) : res (list hnode * nat) :=
  match path with
  | EmptyString => Ok (h, loc)
  | String c path' =>
      let* (h', loc') := add_step c n h loc in add_walk path' n h' loc'
  end.

(** tree.go:32-63 AddNode.  [root = None] is a nil root. *)
Definition AddNode (h : list hnode) (root : option nat) (path pred : string) (spl : option splitter)
  : res (list hnode * option nat) :=
  let n := length h in
  let h0 := h ++ [mkH pred spl None None None] in
  match root with
  | None => Ok (h0, Some n)
  | Some r => let* (h1, _) := add_walk path n h0 r in Ok (h1, root)
  end.
