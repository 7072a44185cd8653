(** Specifications for C29-C34, C77, independent of the search loops: what a
    target computes, what an admissible split is, and what "best" means. *)
From Verif Require Import Go F64 ModelFeature ModelSplit SplitSpec ModelSearch.
Local Open Scope nat_scope.
Local Open Scope list_scope.

(** A target that computes the impurity [imp] of a set of cases and the impurity
    [cost] of a split, whichever way it is asked, for cases satisfying [ok].
    [ready] describes scratch space of the right shape, [holds l r] scratch space
    that describes the split (l, r). *)
Record honest {A : arith} {St : Type} (T : target A St) (ok : nat -> Prop)
    (imp : list nat -> A) (cost : list nat -> list nat -> A)
    (ready : St -> Prop) (holds : list nat -> list nat -> St -> Prop) : Prop := {
  h_imp : forall l s, Forall ok l -> ready s ->
    exists s', tImp T l s = Ok (imp l, s') /\ ready s';
  h_split : forall l r s, Forall ok l -> Forall ok r -> ready s ->
    exists s', tSplit T l r None s = Ok (cost l r, s') /\ ready s' /\ holds l r s';
  h_update : forall l r l' r' moved s, Forall ok l' -> Forall ok r' -> ready s -> holds l r s ->
    Permutation l' (l ++ moved) -> Permutation r (moved ++ r') ->
    exists s', tUpdate T l' r' None moved s = Ok (cost l' r', s') /\ ready s' /\ holds l' r' s';
  h_perm : forall l r l' r', Permutation l l' -> Permutation r r' -> cost l r = cost l' r'
}.

(** The impurity of a split does not depend on which side is called left. *)
Definition symmetric {A : arith} (cost : list nat -> list nat -> A) : Prop :=
  forall l r, cost l r = cost r l.

(** Comparison usable for a running maximum: nothing is above itself, and what is
    not above [y] is not above anything better than [y]. *)
Definition ordered (A : arith) : Prop :=
  (forall x, nltb A x x = false) /\
  (forall x y z, nltb A y x = false -> nltb A y z = true -> nltb A z x = false).

(** What a split is worth: the decrease from the impurity of the parent, or the
    score itself when the target has no parent impurity (signalled by a negative
    number, see targets with scores). *)
Definition gain (A : arith) (parent : A) (cost : list nat -> list nat -> A) (l r : list nat) : A :=
  if nltb A parent (nofZ A 0) then cost l r else nsub A parent (cost l r).

(** The smallest decrease that counts: 1e-7. *)
Definition least (A : arith) : A := ndiv A (nofZ A 1) (nofZ A 10000000).

(** The two sides of a rule. *)
Definition side (goes : nat -> bool) (cases : list nat) : list nat := filter goes cases.
Definition other (goes : nat -> bool) (cases : list nat) : list nat := filter (fun c => negb (goes c)) cases.

(** Both sides keep at least [leaf] cases. *)
Definition admissible (leaf : nat) (goes : nat -> bool) (cases : list nat) : Prop :=
  leaf <= length (side goes cases) /\ leaf <= length (other goes cases).

(** What the split by a rule is worth. *)
Definition worth (A : arith) (parent : A) (cost : list nat -> list nat -> A)
    (goes : nat -> bool) (cases : list nat) : A :=
  gain A parent cost (side goes cases) (other goes cases).

(** The rule "value at most x". *)
Definition upto (f : numF) (x : f64) (c : nat) : bool := fleb (nvalue f c) x.

(** The rule "category in the set". *)
Definition among (f : catF) (s : nat -> bool) (c : nat) : bool := s (nth c (cData f) 0).

(** The set of categories a code stands for. *)
Definition code_set (code : coded) (cat : nat) : bool :=
  match code with
  | CInt z => (cat <? 64) && Z.testbit z (Z.of_nat cat)
  | CBig z => Z.testbit z (Z.of_nat cat)
  | _ => false
  end.

(** The cut at x is wide: every value on the left is more than the tolerance 1e-7
    below every value on the right (as computed in float64). *)
Definition wide_cut (f : numF) (cases : list nat) (x : f64) : Prop :=
  forall c d, In c (side (upto f x) cases) -> In d (other (upto f x) cases) ->
    fltb (fadd (nvalue f c) f1e_7) (nvalue f d) = true.

(** Different values are more than the tolerance apart. *)
Definition apart (f : numF) (cases : list nat) : Prop :=
  forall c d, In c cases -> In d cases -> fltb (nvalue f c) (nvalue f d) = true ->
    fltb (fadd (nvalue f c) f1e_7) (nvalue f d) = true.

(** Computed midpoints separate values (a consequence of [apart] for float64 values
    of magnitude at most 2^29, see F64Round.v). *)
Definition midpoints (f : numF) (cases : list nat) : Prop :=
  forall c d, In c cases -> In d cases -> fltb (nvalue f c) (nvalue f d) = true ->
    fleb (nvalue f c) (fdiv (fadd (nvalue f c) (nvalue f d)) f2) = true /\
    fltb (fdiv (fadd (nvalue f c) (nvalue f d)) f2) (nvalue f d) = true.

(** Adding the tolerance does not make a value smaller. *)
Definition tolerance_up (f : numF) (cases : list nat) : Prop :=
  forall c, In c cases -> fleb (nvalue f c) (fadd (nvalue f c) f1e_7) = true.

(** Room in the allocations for a list of cases. *)
Definition roomy {St} (al : allocs St) (n : nat) : Prop :=
  n <= length (aVals al) /\ n <= length (aCat al).

(** The scratch space is as usable as before. *)
Definition keeps {St} (ready : St -> Prop) (al al' : allocs St) : Prop :=
  length (aVals al') = length (aVals al) /\ length (aCat al') = length (aCat al) /\ ready (aTgt al').
