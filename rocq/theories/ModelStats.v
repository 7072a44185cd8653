(** Model of stats/stats.go: the sample mean and variance and Welch's t test used
    for the p values of ACE importance (growforest/growforest.go:809, 873).

    The functions are polymorphic in the arithmetic ([F64] is the code, [XR] the
    exact reading).  math.Sqrt, math.Pow, math.Exp and math.Lgamma are
    parameters: nothing is assumed about them here. *)
From Verif Require Import Go F64.
Local Open Scope nat_scope.
Local Open Scope list_scope.

Section Stats.
  Variable A : arith.
  Local Notation "x + y" := (nadd A x y).
  Local Notation "x - y" := (nsub A x y).
  Local Notation "x * y" := (nmul A x y).
  Local Notation "x / y" := (ndiv A x y).
  Local Notation "# z" := (nofZ A z) (at level 1).

  (** stats/stats.go:12-22 MeanAndVar *)
  Definition MeanAndVar (X : list A) : A * A * A :=
    let '(m, v) := fold_left (fun '((m, v) : A * A) (x : A) => (m + x, v + x * x)) X (#0, #0) in
    let n := #(Z.of_nat (length X)) in
    let m := m / n in
    let v := v - n * m * m in
    let v := v / (n - #1) in
    (m, v, n).

  Variables (sqrt exp lgamma : A -> A) (pow : A -> A -> A).

  (** stats/stats.go:94-96 dO *)
  Definition dO (m x a b : A) : A :=
    #(-1) * (a + m) * (a + b + m) * x / ((a + #2 * m) * (a + #2 * m + #1)).
  (** stats/stats.go:98-100 dE *)
  Definition dE (m x a b : A) : A :=
    m * (b - m) * x / ((a + #2 * m - #1) * (a + #2 * m)).
  (** stats/stats.go:110-112 beta; lgamma (103-107) is the parameter. *)
  Definition betaf (a b : A) : A := exp (lgamma a + lgamma b - lgamma (a + b)).
  (** stats/stats.go:77-87 regularizedIncompleteBeta: i runs from 50 down to 1. *)
  Definition regularizedIncompleteBeta (x a b : A) : A :=
    let cf := fold_left (fun cf i => #1 + dE #i x a b / (#1 + dO #i x a b / cf))
                        (map (fun k => 50 - Z.of_nat k)%Z (seq 0 50)) #1 in
    pow x a * pow (#1 - x) b / (a * betaf a b * (#1 + dO #0 x a b / cf)).

  (** The literals 0.5 and 0.9: the quotients are correctly rounded, so they are
      the literals. *)
  Definition half : A := #1 / #2.
  Definition nine_tenths : A := #9 / #10.

  (** stats/stats.go:52-62: the integral of the tail. *)
  Definition tail (ttrans v : A) : A :=
    if nltb A nine_tenths ttrans
    then #1 - regularizedIncompleteBeta (#1 - ttrans) half (v / #2)
    else regularizedIncompleteBeta ttrans (v / #2) half.

  (** stats/stats.go:27-73 Ttest: p, t, v, am *)
  Definition Ttest (X Y : list A) : A * A * A * A :=
    let '(Am, Av, An) := MeanAndVar X in
    let '(Bm, Bv, Bn) := MeanAndVar Y in
    let As := Av / An in
    let Bs := Bv / Bn in
    let s := As + Bs in
    let t := (Am - Bm) / sqrt s in
    let v := s * s / (As * As / (An - #1) + Bs * Bs / (Bn - #1)) in
    let ttrans := v / (t * t + v) in
    let integral := tail ttrans v in
    let p := if nltb A #0 t then integral / #2 else #1 - integral / #2 in
    (p, t, v, Am).
End Stats.
