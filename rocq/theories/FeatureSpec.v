(** Specifications for C05-C10, independent of the model's helpers. *)
From Verif Require Import Go F64.
Local Open Scope nat_scope.
Local Open Scope list_scope.

(** The distinct names of a history, in order of first occurrence. *)
Fixpoint first_occurrences (seen vs : list string) : list string :=
  match vs with
  | [] => seen
  | v :: vs' => if in_dec string_dec v seen then first_occurrences seen vs'
                else first_occurrences (seen ++ [v]) vs'
  end.

(** The missing tokens, case insensitively (ASCII). *)
Definition same_letter (a b : ascii) : Prop :=
  let na := nat_of_ascii a in let nb := nat_of_ascii b in
  na = nb \/ (65 <= na <= 90 /\ nb = na + 32) \/ (65 <= nb <= 90 /\ na = nb + 32).
Fixpoint same_word (s t : string) : Prop :=
  match s, t with
  | EmptyString, EmptyString => True
  | String a s', String b t' => same_letter a b /\ same_word s' t'
  | _, _ => False
  end.
Definition is_token (v : string) : Prop :=
  exists t, In t [""; "?"; "nan"; "na"; "null"]%string /\ same_word v t.

(** The values present under a mask. *)
Fixpoint present {A} (ms : list bool) (d : list A) : list A :=
  match ms, d with
  | m :: ms', x :: d' => if m then present ms' d' else x :: present ms' d'
  | _, _ => []
  end.

(** [k] is the most frequent entry of [l], the lowest on ties. *)
Definition is_mode (k : nat) (l : list nat) : Prop :=
  forall j, (count_occ Nat.eq_dec l j <= count_occ Nat.eq_dec l k)
            /\ (j < k -> count_occ Nat.eq_dec l j < count_occ Nat.eq_dec l k).

(** The floating point mean: sum from the left divided by the count. *)
Definition fmean (l : list f64) : f64 := fdiv (fold_left fadd l f0) (f_of_nat (length l)).
