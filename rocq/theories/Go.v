(** Shared vocabulary for modelling Go code: results with explicit panics,
    loops with explicit fuel, bounds-checked slices.

    Nothing in this file models a particular line of /repo; it fixes the
    meaning of the constructs used by the model files. *)
From Coq Require Export Strings.String Strings.Ascii.
From Coq Require Export List Arith ZArith Lia Bool Permutation.
Export ListNotations.
Set Implicit Arguments.

(** Result of running a piece of Go code: a value, a run time panic (index out
    of range, [rand.Intn(0)], nil dereference ...), or "still running" when the
    fuel of a loop is used up.  Theorems about the code always exclude [Panic]
    and [Spin] explicitly. *)
Inductive res (A : Type) : Type :=
| Ok (a : A)
| Panic
| Spin.
Arguments Ok {A} _.
Arguments Panic {A}.
Arguments Spin {A}.

Definition bind {A B} (m : res A) (k : A -> res B) : res B :=
  match m with
  | Ok a => k a
  | Panic => Panic
  | Spin => Spin
  end.

Notation "'let*' x ':=' m 'in' k" := (bind m (fun x => k))
  (at level 200, x pattern, m at level 100, k at level 200, right associativity).

(** One pass through a loop body: go round again or leave the loop. *)
Inductive flow (St R : Type) : Type :=
| Next (s : St)
| Done (r : R).
Arguments Next {St R} _.
Arguments Done {St R} _.

(** [for { body }] with fuel. *)
Fixpoint loop {St R} (fuel : nat) (body : St -> res (flow St R)) (s : St) : res R :=
  match fuel with
  | O => Spin
  | S f => let* x := body s in
           match x with
           | Next s' => loop f body s'
           | Done r => Ok r
           end
  end.

(** [for i := lo; i < lo+n; i++ { st = body i st }] *)
Fixpoint for_up {St} (n lo : nat) (body : nat -> St -> res St) (s : St) : res St :=
  match n with
  | O => Ok s
  | S n' => let* s' := body lo s in for_up n' (S lo) body s'
  end.

(** [for i := n-1; i >= 0; i-- { st = body i st }] *)
Fixpoint for_down {St} (n : nat) (body : nat -> St -> res St) (s : St) : res St :=
  match n with
  | O => Ok s
  | S n' => let* s' := body n' s in for_down n' body s'
  end.

(** Range over a slice, panics propagate. *)
Fixpoint foreach {A St} (l : list A) (body : A -> St -> res St) (s : St) : res St :=
  match l with
  | [] => Ok s
  | a :: l' => let* s' := body a s in foreach l' body s'
  end.

(** ** Slices *)

(** [l[i]] *)
Definition get {A} (l : list A) (i : nat) : res A :=
  match nth_error l i with
  | Some a => Ok a
  | None => Panic
  end.

(** [l[i]] for an index that may be negative. *)
Definition getZ {A} (l : list A) (i : Z) : res A :=
  if (i <? 0)%Z then Panic else get l (Z.to_nat i).

Fixpoint upd {A} (l : list A) (i : nat) (x : A) : list A :=
  match l, i with
  | [], _ => []
  | _ :: l', O => x :: l'
  | a :: l', S i' => a :: upd l' i' x
  end.

(** [l[i] = x] *)
Definition set {A} (l : list A) (i : nat) (x : A) : res (list A) :=
  if i <? length l then Ok (upd l i x) else Panic.

(** [l[i], l[j] = l[j], l[i]] *)
Definition swapl {A} (l : list A) (i j : nat) : res (list A) :=
  let* x := get l i in
  let* y := get l j in
  let* l1 := set l i y in
  set l1 j x.

(** [l[lo:hi]] as a value (a copy of the window). *)
Definition slice {A} (l : list A) (lo hi : nat) : res (list A) :=
  if (lo <=? hi) && (hi <=? length l)
  then Ok (firstn (hi - lo) (skipn lo l)) else Panic.

(** Write back the content of a window of length [length w] at [lo]. *)
Definition putwin {A} (l : list A) (lo : nat) (w : list A) : list A :=
  firstn lo l ++ w ++ skipn (lo + length w) l.

(** ** Total correctness triples *)

Definition yields {A} (m : res A) (Q : A -> Prop) : Prop :=
  exists a, m = Ok a /\ Q a.

(** Partial correctness: if the code returns, then the postcondition holds. *)
Definition ifok {A} (m : res A) (Q : A -> Prop) : Prop :=
  forall a, m = Ok a -> Q a.
