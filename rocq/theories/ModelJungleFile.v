(** Model of writing a jungle to a forest file: forestwriter.go:26-74 on nodes in a heap, where a node can have
    several parents.  It is the code modelled in ModelFile.v for trees; here the pointers are followed. *)
From Verif Require Import Go F64 ModelFeature ModelTree ModelText ModelFile ModelJungle.
Local Open Scope string_scope.
Local Open Scope nat_scope.
Local Open Scope list_scope.

(** tree.go:15-20 Tree; the root is the node at address 0. *)
Record hwtree := mkHW { hwHeap : list jnode; hwTarget : string; hwWeight : f64 }.

Section Write.
  (** As in ModelFile.v. *)
  Variable fmtF : f64 -> bytes.
  Variable itoa : nat -> bytes.
  Variable ord : nat -> bytes -> list string -> list string.

  (** A pointer that is not nil. *)
  Definition isSome {X} (o : option X) : bool := match o with Some _ => true | None => false end.

  (** forestwriter.go:61-74 WriteNodeAndChildren of the node at [a]; a nil pointer panics.  The branch for missing
      values writes [n.Right] (71).  [fuel] bounds the depth. *)
  Fixpoint HWriteNodeAndChildren (fuel : nat) (h : list jnode) (i : nat) (a : option nat) (path : bytes) : res bytes :=
    match a with
    | None => Panic
    | Some a =>
        match fuel with
        | 0 => Spin
        | S fuel =>
            let* n := get h a in
            let spl := isSome (dSpl (jD n)) in
            let* wl := if spl && isSome (jL n) then HWriteNodeAndChildren fuel h i (jL n) (path ++ B "L") else Ok [] in
            let* wr := if spl && isSome (jR n) then HWriteNodeAndChildren fuel h i (jR n) (path ++ B "R") else Ok [] in
            let* wm := if spl && isSome (jM n) then HWriteNodeAndChildren fuel h i (jR n) (path ++ B "M") else Ok [] in
            Ok (WriteNode fmtF ord i (jD n) path ++ wl ++ wr ++ wm)
        end
    end.

  (** forestwriter.go:36-39 WriteTree.  Pointers go forward (JungleShape.v), so the number of nodes bounds the depth. *)
  Definition HWriteTree (t : hwtree) (i : nat) : res bytes :=
    let* ns := HWriteNodeAndChildren (length (hwHeap t)) (hwHeap t) i (Some 0) (B "*") in
    Ok (WriteTreeHeader fmtF itoa i (hwTarget t) (hwWeight t) ++ ns).

  (** forestwriter.go:26-33 WriteForest *)
  Definition HWriteForest (target : string) (intercept : f64) (ts : list hwtree) : res bytes :=
    let h := if feqb intercept f0 then [] else WriteForestHeader fmtF itoa 0 target intercept in
    foreach (combine (seq 0 (length ts)) ts) (fun '((i, t) : nat * hwtree) out =>
      let* w := HWriteTree t i in Ok (out ++ w)) h.
End Write.
