(** Targets as interface values: the functions of ModelImpurity.v packed into the
    records of ModelSearch.v.  The state of a counting target is the slice used by
    Impurity (allocs.Counter) and the three counters of SplitImpurity. *)
From Verif Require Import Go F64 ModelFeature ModelImpurity ModelSearch.
Local Open Scope nat_scope.
Local Open Scope list_scope.

Definition cst : Type := (list Z * counters)%type.

(** Impurity / SplitImpurity / UpdateSImpFromAllocs built from an impurity function
    and an update (see ModelImpurity.v for the lines). *)
Definition counting_target (A : arith) (imp : impurity A)
    (upd : list nat -> list nat -> option (list nat) -> counters -> list nat -> res (A * counters))
  : target A cst :=
  mkTarget
    (fun cases s => let* (e, c) := imp cases (fst s) in Ok (e, (c, snd s)))
    (fun l r m s => let* (e, k) := SplitImpurity A imp l r m (snd s) in Ok (e, (fst s, k)))
    (fun l r m moved s => let* (e, k) := upd l r m (snd s) moved in Ok (e, (fst s, k))).

(** DenseCatFeature as a target (densecatfeature.go:945-1019) *)
Definition gini_target (A : arith) (data : list nat) : target A cst :=
  counting_target A (GiniWithoutAlocate A data) (UpdateSImp_gini A data (GiniFromCounts A)).

(** EntropyTarget (entropytarget.go:23-88) *)
Definition entropy_target (A : arith) (nlog : A -> A) (data : list nat) : target A cst :=
  counting_target A (EntropyImpurity A nlog data) (UpdateSImp A data (EntropyFromCounts A nlog)).

(** DenseNumFeature as a target (densenumfeature.go:394-495) *)
Definition num_target (A : arith) (data : list A) : target A (sums A) :=
  mkTarget
    (fun cases s => let* e := NumImpurity A data cases in Ok (e, s))
    (fun l r m s => NumSplitImpurity A data l r m s)
    (fun l r m moved s => NumUpdate A data l r m s moved).

(** GradBoostTarget (gradboosttarget.go:61-115): Impurity is -1 unless the squared
    error is negligible, SplitImpurity a score. *)
Definition grad_target (A : arith) (data : list A) : target A (A * A) :=
  mkTarget
    (fun cases s => let* e := NumImpurity A data cases in
                    Ok (if nleb A e (minImp A) then e else nofZ A (-1), s))
    (fun l r _ _ => GBSplit A data l r)
    (fun l r _ moved s => GBUpdate A data l r s moved).
