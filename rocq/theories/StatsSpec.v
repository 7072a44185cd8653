(** The regularized incomplete beta function, independently of stats/stats.go: the sum of a
    series (Digital Library of Mathematical Functions, 8.17.8: x^a (1-x)^b / (a B(a,b)) times
    the hypergeometric series F(a+b, 1; a+1; x)). *)
From Verif Require Import Go F64 Exact ImpuritySpec.
From Coq Require Import Reals.
Local Open Scope list_scope.
Local Open Scope R_scope.

(** (s)(s+1)...(s+k-1) *)
Fixpoint rising (s : R) (k : nat) : R := match k with O => 1 | S k => rising s k * (s + INR k) end.
Definition is_incbeta (beta x a b I : R) : Prop :=
  infinite_sum (fun k => Rpower x a * Rpower (1 - x) b / (a * beta) * (rising (a + b) k / rising (a + 1) k * x ^ k)) I.

(** ** Welch's test *)

(** The squared standard error of the mean of a sample *)
Definition sem2 (l : list R) : R := sse l / (INR (length l) - 1) / INR (length l).
Definition welch_t (l1 l2 : list R) : R := (mean l1 - mean l2) / sqrt (sem2 l1 + sem2 l2).
Definition welch_v (l1 l2 : list R) : R :=
  (sem2 l1 + sem2 l2) * (sem2 l1 + sem2 l2)
  / (sem2 l1 * sem2 l1 / (INR (length l1) - 1) + sem2 l2 * sem2 l2 / (INR (length l2) - 1)).
(** The argument of the incomplete beta function *)
Definition welch_x (l1 l2 : list R) : R := welch_v l1 l2 / (welch_t l1 l2 * welch_t l1 l2 + welch_v l1 l2).
