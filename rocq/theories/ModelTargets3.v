(** What was left of the targets: transduction splits, the targets that look up a label when
    they are made, the predictions of disutility entropy, Mode of a numerical feature. *)
From Verif Require Import Go F64 ModelFeature ModelImpurity ModelTargets2.
Local Open Scope string_scope.
Local Open Scope nat_scope.
Local Open Scope list_scope.

Section Targets3.
  Variable A : arith.
  Local Notation zero := (nofZ A 0).

  (** transduction.go:57-75 SplitImpurity; [sup] and [supsplit] are Impurity and
      SplitImpurity of the wrapped target. *)
  Definition TransSplitImpurity (sup : impurity A)
      (supsplit : list nat -> list nat -> option (list nat) -> counters -> res (A * counters))
      (spans : list (list nat -> res A)) (alpha : A)
      (l r : list nat) (m : option (list nat)) (k : counters) : res (A * counters) :=
    if nleb A alpha zero && nleb A zero alpha then supsplit l r m k
    else SplitImpurity A (TransImpurity A sup spans alpha) l r m k.

  (** transduction.go:79-81 UpdateSImpFromAllocs: the moved cases are not used. *)
  Definition TransUpdate (sup : impurity A)
      (supsplit : list nat -> list nat -> option (list nat) -> counters -> res (A * counters))
      (spans : list (list nat -> res A)) (alpha : A)
      (l r : list nat) (m : option (list nat)) (k : counters) (moved : list nat) : res (A * counters) :=
    TransSplitImpurity sup supsplit spans alpha l r m k.

  (** A categorical feature whose names are [cm]. *)
  Definition with_names (f : catF) (cm : catmap) : catF :=
    mkCat cm (cData f) (cMissing f) (cName f) (cRandom f) (cHas f).

  (** NPtarget.go:40-42 NewNPTarget: Posi and the feature afterwards. *)
  Definition NewNPTarget (f : catF) (pos : string) : nat * catF :=
    let (cm, posi) := CatToNum (cMap f) pos in (posi, with_names f cm).
  (** transduction.go:42-52 NewTransTarget: Unlabeled and the feature afterwards (MaxCats
      is in ModelTargets2.v). *)
  Definition NewTransTarget (f : catF) (unlabeled : string) : nat * catF :=
    let (cm, n) := CatToNum (cMap f) unlabeled in (n, with_names f cm).

  (** dentropytarget.go:85-114 FindPredicted before formatting ([weightedvoted] is true),
      and the feature afterwards. *)
  Definition DEntropyPredicted (f : catF) (costs : list A) (cases : list nat) : res (A * catF) :=
    let (cm, t) := CatToNum (cMap f) "True" in
    let* (count, total) := foreach cases (fun i '((count, total) : A * A) =>
        let* ti := get (cData f) i in
        let* cost := get costs ti in
        let count := if ti =? t then nadd A count cost else count in
        Ok (count, nadd A total cost)) (zero, zero) in
    Ok (ndiv A count total, with_names f cm).
End Targets3.

(** dentropytarget.go:22-24 NewDEntropyTarget, regrettarget.go:23-25 NewRegretTarget and
    adacosttarget.go:26-28 NewAdaCostTarget: the costs before SetCosts *)
Definition NewCosts (A : arith) (f : catF) : list A := repeat (nofZ A 0) (NCats (cMap f)).

(** densenumfeature.go:531-549 Mode.  [counts[x] += 1] on a Go map with float64 keys: keys
    are compared with ==, so a NaN never meets an entry and adds one. *)
Fixpoint count_in (x : f64) (counts : list (f64 * nat)) : list (f64 * nat) :=
  match counts with
  | [] => [(x, 1)]
  | (k, v) :: rest => if feqb k x then (k, v + 1) :: rest else (k, v) :: count_in x rest
  end.
(** densenumfeature.go:533-539 *)
Definition num_counts (data : list f64) (missing : list bool) (cases : list nat) : res (list (f64 * nat)) :=
  foreach cases (fun i counts =>
    let* m := get missing i in
    if m then Ok counts else let* x := get data i in Ok (count_in x counts)) [].
(** densenumfeature.go:540-547 for the entries of the map in iteration order *)
Definition num_mode (entries : list (f64 * nat)) : f64 :=
  fst (fold_left (fun (acc : f64 * nat) (e : f64 * nat) => if snd acc <? snd e then e else acc) entries (f0, 0)).
