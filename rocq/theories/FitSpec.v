(** What boosting does to the fit of the training cases: specification. *)
From Verif Require Import Go F64 Exact ModelFeature ModelTree TreeSpec ImpuritySpec.
Local Open Scope nat_scope.
Local Open Scope list_scope.

(** The training error: the sum of the squared residuals. *)
Definition squares (rs : list R) : R := Rsum (map (fun r => r * r)%R rs).

(** The training cases in the leaf of case [d]; none if the tree loses [d]. *)
Definition leaf_mates (fm : fmatrix) (t : node) (n d : nat) : list nat :=
  match follow fm t d with
  | Some q => filter (ends_at fm t q) (seq 0 n)
  | None => []
  end.
(** The average residual in the leaf of case [d] (0 if the tree loses [d]). *)
Definition leaf_mean (fm : fmatrix) (t : node) (rs : list R) (d : nat) : R := mean (values rs (leaf_mates fm t (length rs) d)).

(** One step of length [l] towards the average of the leaf. *)
Definition step_down (l : R) (fm : fmatrix) (t : node) (rs : list R) : list R :=
  map (fun d => nth d rs 0 - l * leaf_mean fm t rs d)%R (seq 0 (length rs)).

(** Every one of [n] cases is in the sample, all equally often. *)
Definition evenly (n : nat) (cs : list nat) : Prop :=
  exists k, 0 < k /\ forall c, count_occ Nat.eq_dec cs c = if c <? n then k else 0.
