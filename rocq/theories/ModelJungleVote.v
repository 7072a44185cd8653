(** Model of voting with a grown jungle: node.go:53-72 Recurse and tree.go:407-424
    VoteCases on nodes in a heap, where a node can have several parents.  It is the
    code modelled in ModelTree.v for trees; here the pointers are followed. *)
From Verif Require Import Go F64 ModelFeature ModelSplit ModelTree ModelGrow ModelJungle.
Local Open Scope nat_scope.
Local Open Scope list_scope.

(** node.go:53-72 Recurse on the node at address [a]; a nil pointer panics.  [fuel]
    bounds the depth. *)
Fixpoint HRecurse {St} (fuel : nat) (h : list jnode) (r : jnode -> list nat -> nat -> St -> res St) (fm : fmatrix)
    (a : option nat) (arr : list nat) (lo hi depth : nat) (st : St) : res (list nat * St) :=
  match a with
  | None => Panic
  | Some a =>
      match fuel with
      | 0 => Spin
      | S fuel =>
          let* n := get h a in
          let* cases := slice arr lo hi in
          let* st0 := r n cases depth st in
          let* o := node_split fm (jD n) cases in
          match o with
          | None => Ok (arr, st0)
          | Some sr =>
              let arr0 := putwin arr lo (srCases sr) in
              let a1 := lo + length (srL sr) in
              let b1 := a1 + length (srM sr) in
              let* (arr1, st1) := HRecurse fuel h r fm (jL n) arr0 lo a1 (S depth) st0 in
              let* (arr2, st2) := HRecurse fuel h r fm (jR n) arr1 b1 hi (S depth) st1 in
              if (0 <? length (srM sr)) && match jM n with Some _ => true | None => false end
              then HRecurse fuel h r fm (jM n) arr2 a1 b1 (S depth) st2
              else Ok (arr2, st2)
          end
      end
  end.

(** tree.go:407-424 VoteCases, from the root at address 0.  [Left == nil && Right == nil]
    is tree.go:416. *)
Definition HVoteCases (fuel : nat) (h : list jnode) (fm : fmatrix) (tweight : f64) (cases : list nat) (bb : ballots)
  : res (list nat * ballots) :=
  let weight := if fleb f0 tweight then tweight else f1 in
  HRecurse fuel h (fun n cs _ bb =>
    match jL n, jR n with
    | None, None => for_up (length cs) 0 (fun i bb => let* c := get cs i in Ok (bb ++ [(c, dPred (jD n), weight)])) bb
    | _, _ => Ok bb
    end) fm (Some 0) cases 0 (length cases) 0 bb.
