(** What sorting means, independently of the sorting code. *)
From Verif Require Import Go F64.
From Coq Require Export Sorted.

Definition ascending (l : list f64) : Prop :=
  StronglySorted (fun x y => fleb x y = true) l.
