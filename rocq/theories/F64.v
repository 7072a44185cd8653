(** Go's float64: IEEE-754 binary64, as the executable, axiom free operations
    of the standard library's [SpecFloat] (round to nearest even). *)
From Verif Require Import Go.
From Coq Require Export Floats.SpecFloat.

Definition f64 : Type := spec_float.

Definition fadd (x y : f64) : f64 := SFadd 53 1024 x y.
Definition fsub (x y : f64) : f64 := SFsub 53 1024 x y.
Definition fmul (x y : f64) : f64 := SFmul 53 1024 x y.
Definition fdiv (x y : f64) : f64 := SFdiv 53 1024 x y.
Definition fneg (x : f64) : f64 := SFopp x.
Definition fabs (x : f64) : f64 := SFabs x.

(** Go's [x < y], [x <= y], [x == y]; [x > y] is [fltb y x], [x >= y] is [fleb y x]. *)
Definition fltb (x y : f64) : bool := SFltb x y.
Definition fleb (x y : f64) : bool := SFleb x y.
Definition feqb (x y : f64) : bool := SFeqb x y.

(** [math.IsNaN] *)
Definition is_nan (x : f64) : bool := match x with S754_nan => true | _ => false end.

Definition f0 : f64 := S754_zero false.
Definition f1 : f64 := S754_finite false 4503599627370496 (-52).
Definition f2 : f64 := S754_finite false 4503599627370496 (-51).

(** [float64(n)] for an integer n *)
Definition f_of_Z (n : Z) : f64 := binary_normalize 53 1024 n 0 false.
Definition f_of_nat (n : nat) : f64 := f_of_Z (Z.of_nat n).

(** The nearest binary64 to 1e-7: [constant_cutoff] and [minImp]
    (featureinterfaces.go:10-13). *)
Definition f1e_7 : f64 := S754_finite false 7555786372591432 (-76).

(** Arithmetic as a parameter: the same model function can be read over float64
    (the code) or over the reals (the exact reading). *)
Record arith := Arith {
  car :> Type;
  nadd : car -> car -> car;
  nsub : car -> car -> car;
  nmul : car -> car -> car;
  ndiv : car -> car -> car;
  nltb : car -> car -> bool;
  nleb : car -> car -> bool;
  nofZ : Z -> car;
  nnan : car -> bool
}.

Definition F64 : arith := Arith f64 fadd fsub fmul fdiv fltb fleb f_of_Z is_nan.
