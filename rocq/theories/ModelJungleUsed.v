(** Model of GrowJungle (tree.go:178-334) on a tree that was grown before, as growforest does from the second
    tree of a goroutine on (growforest.go:600, 664-665: the tree is made once and grown again and again).
    The root is the node at address 0; its children and all other nodes are left from before. *)
From Verif Require Import Go F64 ModelFeature ModelSplit ModelSample ModelSearch ModelBallot ModelTree ModelGrow ModelJungle.
Local Open Scope nat_scope.
Local Open Scope list_scope.

(** tree.go:178-334 GrowJungle, for the nodes [heap]; [GrowJungle] is the case of a new tree. *)
Definition GrowJungleOn A St T predict rnd K kCopyFrom kShuffleCases kTarget p (heap : list jnode) (fuel : nat)
    (cases : list nat) (g : gstate A St K) : res (jstate A St K) :=
  levels A St T predict rnd K kCopyFrom kShuffleCases kTarget p fuel
    (mkS A St K heap [mkE 0 0 (length cases) 0 None false] cases g).
