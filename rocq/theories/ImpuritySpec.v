(** Specifications for C43-C49, independent of the model of the targets: class
    shares, Gini index, entropy, squared deviations, misclassification cost. *)
From Verif Require Import Go F64 Exact.
Local Open Scope nat_scope.
Local Open Scope list_scope.

(** The labels of a list of cases and how often a label occurs. *)
Definition labels (data cases : list nat) : list nat := map (fun i => nth i data 0) cases.
Definition occurs (ls : list nat) (c : nat) : nat := count_occ Nat.eq_dec ls c.

(** Every case exists and its label is one of the [k] categories. *)
Definition labelled (data : list nat) (k : nat) (cases : list nat) : Prop :=
  Forall (fun i => i < length data /\ nth i data 0 < k) cases.

(** All labels agree. *)
Definition pure (ls : list nat) : Prop := forall a b, In a ls -> In b ls -> a = b.

(** The fraction of label [c]. *)
Definition share (ls : list nat) (c : nat) : R := (INR (occurs ls c) / INR (length ls))%R.

(** Gini index: one minus the sum of the squared shares. *)
Definition gini (ls : list nat) (k : nat) : R :=
  (1 - Rsum (map (fun c => share ls c * share ls c) (seq 0 k)))%R.

(** Entropy (natural logarithm, 0 log 0 = 0). *)
Definition plogp (p : R) : R := if Req_EM_T p 0 then 0%R else (p * ln p)%R.
Definition entropy (ls : list nat) (k : nat) : R :=
  (- Rsum (map (fun c => plogp (share ls c)) (seq 0 k)))%R.

(** The average of an impurity over the parts of a split, weighted by size. *)
Definition weighted_average (imp : list nat -> R) (parts : list (list nat)) : R :=
  (Rsum (map (fun p => INR (length p) * imp p) parts) / Rsum (map (fun p => INR (length p)) parts))%R.

(** Numerical values of cases, mean and sum of squared deviations. *)
Definition values (xs : list R) (cases : list nat) : list R := map (fun i => nth i xs 0%R) cases.
Definition mean (vs : list R) : R := (Rsum vs / INR (length vs))%R.
Definition sse (vs : list R) : R := Rsum (map (fun v => (v - mean vs) * (v - mean vs))%R vs).
Definition constant_list (vs : list R) : Prop := forall a b, In a vs -> In b vs -> a = b.

(** Average cost of the cases that are not labelled [mi]; [cost c] is the cost
    of misclassifying a case of category [c]. *)
Definition average_cost (cost : nat -> R) (mi : nat) (ls : list nat) : R :=
  (Rsum (map (fun c => if c =? mi then 0 else cost c) ls) / INR (length ls))%R.

(** [m] has the largest value of [v] among the first [k] categories, the lowest
    numbered one on ties. *)
Definition first_max (v : nat -> R) (k m : nat) : Prop :=
  m < k /\ (forall c, c < k -> (v c <= v m)%R) /\ (forall c, c < m -> (v c < v m)%R).

(** A chain of splits: every step moves some cases from the right to the left. *)
Record move := Move { mvL : list nat; mvR : list nat; mvMoved : list nat }.
Fixpoint moves_ok (l r : list nat) (steps : list move) : Prop :=
  match steps with
  | [] => True
  | s :: steps' =>
      Permutation (mvL s) (l ++ mvMoved s) /\ Permutation r (mvMoved s ++ mvR s)
      /\ moves_ok (mvL s) (mvR s) steps'
  end.
