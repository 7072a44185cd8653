(** Specifications for C11-C16. *)
From Verif Require Import Go.
Local Open Scope nat_scope.
Local Open Scope list_scope.

(** Draw [j] of a shuffle of [n] entries is a number below [n - j]. *)
Definition legal (n : nat) (rnd : nat -> nat) : Prop := forall j, j < n -> rnd j < n - j.

(** [l'] holds at the positions listed in [at_] what [l] holds at those of [from],
    and agrees with [l] everywhere else. *)
Definition moved {A} (at_ from : list nat) (l l' : list A) : Prop :=
  length l' = length l
  /\ map (nth_error l') at_ = map (nth_error l) from
  /\ forall i, ~ In i at_ -> nth_error l' i = nth_error l i.

(** Class membership of case [i] under a mask and a column of category numbers. *)
Definition has_class (ms : list bool) (d : list nat) (c i : nat) : Prop :=
  nth_error ms i = Some false /\ nth_error d i = Some c.
Definition has_classb (ms : list bool) (d : list nat) (c i : nat) : bool :=
  match nth_error ms i, nth_error d i with
  | Some false, Some c' => c' =? c
  | _, _ => false
  end.
(** The cases of class [c], in ascending order. *)
Definition class_cases (ms : list bool) (d : list nat) (c : nat) : list nat :=
  filter (has_classb ms d c) (seq 0 (length d)).

Lemma has_classb_spec ms d c i : has_classb ms d c i = true <-> has_class ms d c i.
Proof.
  unfold has_classb, has_class.
  destruct (nth_error ms i) as [[|]|], (nth_error d i) as [c'|];
    rewrite ?Nat.eqb_eq; split; try discriminate; try (intros []; congruence).
  intros ->; auto.
Qed.

(** Number [r] falls into block [b] when blocks of the given sizes are laid one after
    the other from 0. *)
Definition in_block (sizes : list nat) (r b : nat) : Prop :=
  list_sum (firstn b sizes) <= r < list_sum (firstn (S b) sizes).
