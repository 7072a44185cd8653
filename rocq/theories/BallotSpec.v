(** Specifications for C19-C25, C27, C28, independent of the ballot boxes. *)
From Verif Require Import Go F64 Exact.
Local Open Scope string_scope.
Local Open Scope nat_scope.
Local Open Scope list_scope.

(** A vote: case, prediction, weight. *)
Definition vote (N : arith) : Type := nat * string * N.

Section Spec.
  Variable N : arith.
  (** The weights cast on case [i] for category [name], in the order cast. *)
  Definition weights_for (i : nat) (name : string) (votes : list (vote N)) : list N :=
    flat_map (fun '(c, p, w) => if (c =? i) && String.eqb p name then [w] else []) votes.
  (** Their sum, from the left. *)
  Definition total_for (i : nat) (name : string) (votes : list (vote N)) : N :=
    fold_left (nadd N) (weights_for i name votes) (nofZ N 0).

  (** The (value, weight) pairs of the votes on case [i] that are numbers. *)
  Definition numbers_for (ParseFloat : string -> option N) (i : nat) (votes : list (vote N))
    : list (N * N) :=
    flat_map (fun '(c, p, w) =>
      if c =? i then match ParseFloat p with Some v => [(v, w)] | None => [] end else []) votes.
End Spec.

(** The real (value, weight) pairs among exact pairs: those without NaN. *)
Definition real_pairs (l : list (xr * xr)) : list (R * R) :=
  flat_map (fun '(v, w) => match v, w with Some a, Some b => [(a, b)] | _, _ => [] end) l.

Definition wsum (l : list (R * R)) : R := Rsum (map snd l).
Definition wvsum (l : list (R * R)) : R := Rsum (map (fun '(v, w) => (v * w)%R) l).
(** The weighted mean of (value, weight) pairs. *)
Definition wmean (l : list (R * R)) : R := (wvsum l / wsum l)%R.

(** C25: the sum of the values added for a pair. *)
Definition sum_added (i j : nat) (adds : list (nat * nat * Z)) : Z :=
  fold_right (fun '(a, b, v) s => if (a =? i) && (b =? j) then (v + s)%Z else s) 0%Z adds.

(** C27: how many of the first [n] cases satisfy a test. *)
Definition count (P : nat -> bool) (n : nat) : nat := length (filter P (seq 0 n)).
