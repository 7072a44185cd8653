(** What the files of applyforest should say, from the trees alone. *)
From Verif Require Import Go F64 ModelFeature ModelTree TreeSpec.
Local Open Scope string_scope.
Local Open Scope nat_scope.
Local Open Scope list_scope.

(** What a tree says about a case: the prediction of the leaf it ends in. *)
Definition says (fm : fmatrix) (c : nat) (t : node * f64) : option string :=
  option_map (fun p => node_pred (at_path (fst t) p)) (follow fm (fst t) c).
(** The weight of a tree; a negative one (or NaN) counts as 1. *)
Definition counts (t : node * f64) : f64 := if fleb f0 (snd t) then snd t else f1.
(** The support of a name for a case: the weights of the trees that say it, added up in the
    order of the trees. *)
Definition says_name (fm : fmatrix) (c : nat) (name : string) (t : node * f64) : bool :=
  match says fm c t with Some s => String.eqb s name | None => false end.
Definition support (fm : fmatrix) (trees : list (node * f64)) (c : nat) (name : string) : f64 :=
  fold_left fadd (map counts (filter (says_name fm c name) trees)) f0.
(** A tree that can be asked about the first [n] cases. *)
Definition askable (fm : fmatrix) (n : nat) (t : node * f64) : Prop :=
  fst t <> Nil /\ well_formed (fst t) /\ usable fm (seq 0 n) (fst t).
