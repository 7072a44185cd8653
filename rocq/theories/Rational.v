(** Exact arithmetic that computes: rational numbers in lowest terms, with [None] for the
    result of a division by zero, like [XR].  It is used for counterexamples in which no
    rounding takes part. *)
From Verif Require Import Go F64.
From Coq Require Import QArith Qreduction.

Definition xq : Type := option Q.
Definition qlift (f : Q -> Q -> Q) (x y : xq) : xq :=
  match x, y with Some a, Some b => Some (Qred (f a b)) | _, _ => None end.
Definition qdiv (x y : xq) : xq :=
  match x, y with
  | Some a, Some b => if Qeq_bool b 0 then None else Some (Qred (a / b))
  | _, _ => None
  end.
Definition qcmp (c : Q -> Q -> bool) (x y : xq) : bool :=
  match x, y with Some a, Some b => c a b | _, _ => false end.
Definition XQ : arith :=
  Arith xq (qlift Qplus) (qlift Qminus) (qlift Qmult) qdiv (qcmp (fun a b => negb (Qle_bool b a))) (qcmp Qle_bool)
      (fun z => Some (inject_Z z)) (fun x => match x with None => true | _ => false end).
