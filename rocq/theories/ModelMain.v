(** The command applyforest from its two input files to its output files
    (applyforest/applyforest.go). *)
From Verif Require Import Go F64 ModelFeature ModelText ModelMatrix ModelSplit ModelTree ModelFile ModelBallot ModelCommands ModelCommands2 ModelApply.
Local Open Scope string_scope.
Local Open Scope nat_scope.
Local Open Scope list_scope.

(** The nodes of tree.go:9-20 and node.go, with their pointers followed: nodes that were read
    have no CodedSplit.  A pointer circle would never end ([Spin]). *)
Fixpoint tree_at (fuel : nat) (h : list hnode) (k : option nat) : res node :=
  match k with
  | None => Ok Nil
  | Some k =>
      match fuel with
      | 0 => Spin
      | S fuel =>
          let* x := get h k in
          let* l := tree_at fuel h (hL x) in
          let* r := tree_at fuel h (hR x) in
          let* m := tree_at fuel h (hM x) in
          Ok (Node (mkNd CNil 0 (hPred x) (hSpl x)) l r m)
      end
  end.

Section Main.
  Variable ParseFloat : string -> option f64.
  Variable Expit : f64 -> f64.
  Variable fmtF : f64 -> string.
  Variable itoa : nat -> string.
  Variable Atoi : bytes -> option Z.
  (** strconv.ParseFloat on the fields of a forest file *)
  Variable PF : bytes -> option f64.

  (** applyforest/applyforest.go:30-138.  [data] is the file -fm names, [rf] the bytes of the
      forest file; the forest file can be opened.  [None] is log.Fatal.  ReadForest without
      an error and without a forest would be a nil pointer. *)
  Definition applyforest_main (fuel : nat) (name : string) (data : file) (rf : bytes) (sum num cat expit preds votes : bool)
      (iters : nat -> ballot F64) : res (option outputs) :=
    let* fm := LoadAFM ParseFloat itoa Atoi name data in
    match fm with
    | None => Ok None
    | Some fm =>
        let* (forest, err, _) := ReadForest PF rf in
        match err, forest with
        | ENone, Some forest =>
            let* trees := foreach (rfTrees forest) (fun t ts =>
              let* n := tree_at fuel (rtHeap t) (rtRoot t) in Ok (ts ++ [(n, rtWeight t)])) [] in
            applyforest ParseFloat Expit fmtF fm sum num cat expit preds votes (rfTarget forest) (rfIntercept forest) trees iters
        | ENone, None => Panic
        | _, _ => Ok None
        end
    end.
End Main.
