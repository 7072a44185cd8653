(** Model of tree.go:178-334 GrowJungle: breadth first growing with recombination
    of nodes.

    Nodes can have several parents here, so they live in a heap and are named by
    their address.  The slice [cases] is one list; the windows of it that are
    passed to BestSplitter and SplitPoints are rearranged in place.  A
    BestSplitter call is the one of ModelGrow.v.  What is simplified: the tree is
    grown on a fresh root (GrowJungle on a tree that was grown before is
    modelled in ModelJungleUsed.v). *)
From Verif Require Import Go F64 ModelFeature ModelSplit ModelSample ModelSearch ModelBallot ModelTree ModelGrow.
Local Open Scope nat_scope.
Local Open Scope list_scope.

(** node.go:11-19 Node, with addresses for Left, Right and Missing. *)
Record jnode := mkJ { jD : nd; jL : option nat; jR : option nat; jM : option nat }.
Definition jnew : jnode := mkJ (mkNd CNil 0 EmptyString None) None None None.

(** tree.go:5-12 nodeAndCases *)
Record entry := mkE {
  eN : nat; eStart : nat; eEnd : nat; eConsts : nat; eParent : option nat; eDead : bool
}.

Section Jungle.
  Variable A : arith.
  Variable St : Type.
  Variable T : target A St.
  Variable predict : list nat -> res string.
  Variable rnd : nat -> nat.
  Variable K : Type.
  Variable kCopyFrom : K -> K.
  Variable kShuffleCases : (nat -> nat) -> list nat -> K -> res K.
  Variable kTarget : K -> target A St.
  Variable p : params.

  (** The heap, the slice [nodes], the slice [cases], and what is shared with Grow. *)
  Record jstate := mkS { sHeap : list jnode; sNodes : list entry; sCases : list nat; sG : gstate A St K }.

  (** tree.go:263-268: a leaf *)
  Definition jleaf (e : entry) (inner : list nat) (s : jstate) : res jstate :=
    let* n := get (sHeap s) (eN e) in
    let* pred := predict inner in
    let* heap := set (sHeap s) (eN e) (mkJ (mkNd CNil (dFeat (jD n)) pred None) (jL n) (jR n) (jM n)) in
    Ok (mkS heap (sNodes s) (sCases s) (sG s)).

  (** tree.go:233-257: a split *)
  Definition jsplit (e : entry) (depth : nat) (b : bstate A St K) (s : jstate) : res jstate :=
    let g := sG s in
    let* (imp, du) := book A (bFi A St K b) depth (bDec A St K b) (gImp A St K g) (gDepth A St K g) in
    let* f := get (pData p) (bFi A St K b) in
    let* spl := fDecodeSplit f (bCode A St K b) in
    let* (cs, li, ri) := fSplitPoints f (bCode A St K b) (bCases A St K b) in
    let l := length (sHeap s) in
    let r := S l in
    let m := S r in
    let* n := get (sHeap s) (eN e) in
    let* heap := set (sHeap s) (eN e)
                   (mkJ (mkNd (bCode A St K b) (bFi A St K b) EmptyString (Some spl)) (Some l) (Some r)
                        (if pSplitMissing p then Some m else jM n)) in
    let kids := [mkE l (eStart e) (eStart e + li) (bConsts A St K b) (Some (eN e)) false;
                 mkE r (eStart e + ri) (eEnd e) (bConsts A St K b) (Some (eN e)) false] ++
                (if pSplitMissing p && negb (li =? ri)
                 then [mkE m (eStart e + li) (eStart e + ri) (bConsts A St K b) (Some (eN e)) false] else []) in
    Ok (mkS (heap ++ [jnew; jnew] ++ (if pSplitMissing p then [jnew] else []))
            (sNodes s ++ kids) (putwin (sCases s) (eStart e) cs)
            (mkG A St K (gCans A St K g) (gOob A St K g) (gAl A St K g) (gK A St K g) imp du)).

  (** tree.go:208-270: one node of the level *)
  Definition jvisit (depth i : nat) (s : jstate) : res jstate :=
    let* e := get (sNodes s) i in
    if eDead e then Ok s
    else
      let* inner := slice (sCases s) (eStart e) (eEnd e) in
      if ((depth <? pMaxDepth p) || (pMaxDepth p <=? 0)) && (2 * pLeaf p <=? length inner) then
        let g := sG s in
        let* b := BestSplitter A St T rnd K kCopyFrom kShuffleCases kTarget p inner (gCans A St K g) (gOob A St K g)
                    (eConsts e) (gAl A St K g) (gK A St K g) in
        let s := mkS (sHeap s) (sNodes s) (putwin (sCases s) (eStart e) (bCases A St K b))
                     (mkG A St K (bCans A St K b) (bOob A St K b) (bAl A St K b) (bK A St K b) (gImp A St K g) (gDepth A St K g)) in
        if isCNil (bCode A St K b) then jleaf e (bCases A St K b) s
        else jsplit e depth b s
      else jleaf e inner s.

  (** tree.go:284-308: the best partner of node i; the target's scratch space is passed on. *)
  Definition partner (i lastThis : nat) (s : jstate) : res (option nat * St) :=
    let* nodei := get (sNodes s) i in
    let* (_, combine, tg) :=
      for_up (length (sNodes s) - lastThis) lastThis (fun j '((maxImp, combine, tg) : A * option nat * St) =>
        let* nodej := get (sNodes s) j in
        if eDead nodej then Ok (maxImp, combine, tg)
        else if (eEnd nodei =? eStart nodej) &&
                negb (match eParent nodei, eParent nodej with
                      | Some a, Some b => a =? b | None, None => true | _, _ => false end) then
          let* inner := slice (sCases s) (eStart nodei) (eEnd nodei) in
          let* inner2 := slice (sCases s) (eStart nodej) (eEnd nodej) in
          let* (simp, tg) := tSplit T inner inner2 None tg in
          let* both := slice (sCases s) (eStart nodei) (eEnd nodej) in
          let* (imp, tg) := tImp T both tg in
          let impDec := nsub A simp imp in
          if nltb A maxImp impDec then Ok (impDec, Some j, tg) else Ok (maxImp, combine, tg)
        else Ok (maxImp, combine, tg)) (nofZ A 0, None, aTgt (gAl A St K (sG s))) in
    Ok (combine, tg).

  (** Replace the address [a] by [b] in one of the three fields of a node:
      tree.go:317-324, the switch. *)
  Definition same (x : option nat) (a : nat) : bool := match x with Some y => y =? a | None => false end.
  Definition redirect (a b : nat) (n : jnode) : jnode :=
    if same (jL n) a then mkJ (jD n) (Some b) (jR n) (jM n)
    else if same (jR n) a then mkJ (jD n) (jL n) (Some b) (jM n)
    else if same (jM n) a then mkJ (jD n) (jL n) (jR n) (Some b)
    else n.

  Definition with_tgt (s : jstate) (tg : St) : jstate :=
    let g := sG s in
    mkS (sHeap s) (sNodes s) (sCases s)
        (mkG A St K (gCans A St K g) (gOob A St K g) (set_tgt St (gAl A St K g) tg) (gK A St K g) (gImp A St K g) (gDepth A St K g)).

  (** tree.go:310-326: combine node i with node j.  [nodei] is a copy, so its new
      end (314) is written to no place. *)
  Definition merge (i j : nat) (s : jstate) : res jstate :=
    let* nodei := get (sNodes s) i in
    let* nj := get (sNodes s) j in
    let* nodes := set (sNodes s) j (mkE (eN nj) (eStart nj) (eEnd nj) (eConsts nj) (eParent nj) true) in
    match eParent nj with
    | None => Panic
    | Some q =>
        let* parent := get (sHeap s) q in
        let* heap := set (sHeap s) q (redirect (eN nj) (eN nodei) parent) in
        Ok (mkS heap nodes (sCases s) (sG s))
    end.

  (** tree.go:279-328: one pass over the nodes of the next level *)
  Definition merge_pass (lastThis : nat) (s : jstate) : res (bool * jstate) :=
    for_up (length (sNodes s) - lastThis) lastThis (fun i '((changed, s) : bool * jstate) =>
      let* e := get (sNodes s) i in
      if eDead e then Ok (changed, s)
      else
        let* (combine, tg) := partner i lastThis s in
        let s := with_tgt s tg in
        match combine with
        | Some j => let* s := merge i j s in Ok (true, s)
        | None => Ok (changed, s)
        end) (false, s).
  (** tree.go:275-329 *)
  Definition merging (lastThis : nat) (s : jstate) : res jstate :=
    loop (S (length (sNodes s))) (fun s =>
      let* (changed, s) := merge_pass lastThis s in
      if changed then Ok (Next s) else Ok (Done s)) s.

  (** tree.go:204-332: the levels *)
  Definition levels (fuel : nat) (s : jstate) : res jstate :=
    loop fuel (fun '((first, depth, s) : nat * nat * jstate) =>
      let lastThis := length (sNodes s) in
      let* s := for_up (lastThis - first) first (jvisit depth) s in
      if length (sNodes s) =? lastThis then Ok (Done s)
      else
        let* s := merging lastThis s in
        Ok (Next (lastThis, S depth, s))) (0, 0, s).

  (** tree.go:178-334 GrowJungle *)
  Definition GrowJungle (fuel : nat) (cases : list nat) (g : gstate A St K) : res jstate :=
    levels fuel (mkS [jnew] [mkE 0 0 (length cases) 0 None false] cases g).
End Jungle.
Arguments sHeap {A St K} _.
Arguments sNodes {A St K} _.
Arguments sCases {A St K} _.
Arguments sG {A St K} _.
