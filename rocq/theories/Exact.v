(** Exact arithmetic: real numbers and one extra value without exact meaning
    ([None]: the result of a division by zero, contagious, all comparisons
    false).  Reading a model function at [XR] instead of [F64] removes rounding
    but keeps track of 0/0. *)
From Verif Require Import Go F64.
From Coq Require Export Reals Lra.

Definition xr : Type := option R.
Definition lift2 (f : R -> R -> R) (x y : xr) : xr :=
  match x, y with Some a, Some b => Some (f a b) | _, _ => None end.
Definition xdiv (x y : xr) : xr :=
  match x, y with
  | Some a, Some b => if Req_EM_T b 0 then None else Some (a / b)%R
  | _, _ => None
  end.
Definition xcmp (c : R -> R -> bool) (x y : xr) : bool :=
  match x, y with Some a, Some b => c a b | _, _ => false end.
Definition Rltb (a b : R) : bool := if Rlt_dec a b then true else false.
Definition Rleb (a b : R) : bool := if Rle_dec a b then true else false.

Definition XR : arith :=
  Arith xr (lift2 Rplus) (lift2 Rminus) (lift2 Rmult) xdiv (xcmp Rltb) (xcmp Rleb)
      (fun z => Some (IZR z)) (fun x => match x with None => true | _ => false end).

Lemma xdiv_some a b : b <> 0%R -> xdiv (Some a) (Some b) = Some (a / b)%R.
Proof. intros. cbn. destruct (Req_EM_T b 0); congruence. Qed.
Lemma Rltb_true a b : Rltb a b = true <-> (a < b)%R.
Proof. unfold Rltb. destruct (Rlt_dec a b); split; auto; discriminate. Qed.
Lemma Rltb_false a b : Rltb a b = false <-> (b <= a)%R.
Proof. unfold Rltb. destruct (Rlt_dec a b); split; auto; try discriminate; lra. Qed.
Lemma Rleb_true a b : Rleb a b = true <-> (a <= b)%R.
Proof. unfold Rleb. destruct (Rle_dec a b); split; auto; discriminate. Qed.

Fixpoint Rsum (l : list R) : R := match l with [] => 0%R | x :: l' => (x + Rsum l')%R end.
Lemma Rsum_app l1 l2 : Rsum (l1 ++ l2) = (Rsum l1 + Rsum l2)%R.
Proof. induction l1; cbn; lra. Qed.
Lemma Rsum_perm l l' : Permutation l l' -> Rsum l = Rsum l'.
Proof. induction 1; cbn; lra. Qed.
