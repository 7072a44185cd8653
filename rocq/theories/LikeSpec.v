(** What two-class boosting does to the likelihood of the training labels: specification. *)
From Verif Require Import Go F64 Exact ModelFeature ModelTree TreeSpec ImpuritySpec FitSpec PropNewton.
Local Open Scope nat_scope.
Local Open Scope list_scope.

(** The chance a score gives to the class the case has ([y] is 1 for the positive class, 0
    for the others). *)
Definition own_chance (y s : R) : R := (y * logistic s + (1 - y) * (1 - logistic s))%R.
(** The logarithm of the likelihood of all labels. *)
Definition likelihood (y : nat -> R) (ss : list R) : R :=
  Rsum (map (fun d => ln (own_chance (y d) (nth d ss 0%R))) (seq 0 (length ss))).

(** The value of a leaf with the cases [cs]: residuals over variances (a Newton step, C108). *)
Definition newton (y : nat -> R) (ss : list R) (cs : list nat) : R :=
  (Rsum (map (fun c => y c - logistic (nth c ss 0)) cs) /
   Rsum (map (fun c => logistic (nth c ss 0) * (1 - logistic (nth c ss 0))) cs))%R.
(** Every case moves by [l] times the value of its leaf (not at all if the tree loses it). *)
Definition step_up (l : R) (fm : fmatrix) (t : node) (y : nat -> R) (ss : list R) : list R :=
  map (fun d => nth d ss 0 + l * newton y ss (leaf_mates fm t (length ss) d))%R (seq 0 (length ss)).
