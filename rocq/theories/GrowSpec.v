(** Specifications for C34-C42: what the searches over one feature promise to the
    search over features and to the growing of trees. *)
From Verif Require Import Go F64 F64Order F64Round ModelFeature ModelSplit SplitSpec ModelSearch SearchSpec.
Local Open Scope nat_scope.
Local Open Scope list_scope.

(** The cases whose value is known, and the others. *)
Definition present (f : feature) (cases : list nat) : list nat := filter (fun c => negb (fmissing f c)) cases.
Definition absent (f : feature) (cases : list nat) : list nat := filter (fmissing f) cases.

(** A target that always answers: no panic and no endless loop for cases satisfying
    [ok] and scratch space satisfying [ready].  Nothing is said about the numbers. *)
Record dependable {A : arith} {St : Type} (T : target A St) (ok : nat -> Prop) (ready : St -> Prop) : Prop := {
  d_imp : forall l s, Forall ok l -> ready s ->
    exists v s', tImp T l s = Ok (v, s') /\ ready s';
  d_split : forall l r m s, Forall ok l -> Forall ok r -> (forall k, m = Some k -> Forall ok k) -> ready s ->
    exists v s', tSplit T l r m s = Ok (v, s') /\ ready s';
  d_update : forall l r m moved s, Forall ok l -> Forall ok r -> (forall k, m = Some k -> Forall ok k) ->
    Forall ok moved -> ready s ->
    exists v s', tUpdate T l r m moved s = Ok (v, s') /\ ready s'
}.

(** A comparison for running maxima, and 0 does not count as a decrease. *)
Definition sane (A : arith) : Prop := ordered A /\ nltb A (least A) (nofZ A 0) = false.

(** A feature that can be searched on these cases: they exist, the flag for missing
    values is right, and numerical values that are present are float64 numbers
    ([valid] says that mantissa and exponent are in range), not NaN. *)
Definition searchable (f : feature) (cases : list nat) : Prop :=
  flag_sound f /\ Forall (has_case f) cases /\
  match f with
  | FNum g => forall c, In c (present f cases) -> valid (nvalue g c) /\ is_nan (nvalue g c) = false
  | FCat _ => True
  end.

(** A feature whose splits are applied as they are evaluated (see C30): numerical
    values of magnitude at most 2^29 that differ by more than 1e-7 or not at all. *)
Definition faithful (f : feature) (cases : list nat) : Prop :=
  match f with
  | FNum g => (forall c, In c (present f cases) -> valid (nvalue g c) /\ moderate (nvalue g c)) /\
              apart g (present f cases)
  | FCat _ => True
  end.

(** A split that leaves at least [leaf] of the cases with a known value on both sides. *)
Definition legal (f : feature) (code : coded) (leaf : nat) (cases : list nat) : Prop :=
  code_fits f code /\ admissible leaf (coded_left f code) (present f cases).

(** No split can ever be found: the values are equal up to the tolerance; no set of
    categories leaves [leaf] cases on both sides. *)
Definition hopeless (f : feature) (leaf : nat) (cases : list nat) : Prop :=
  match f with
  | FNum g => forall c d, In c (present f cases) -> In d (present f cases) ->
                fleb (nvalue g c) (fadd (nvalue g d) f1e_7) = true
  | FCat g => forall s, ~ admissible leaf (among g s) (present f cases)
  end.

(** The searches that look at all sets of categories or use no random draws. *)
Definition deterministic (f : feature) : Prop :=
  match f with FNum _ => True | FCat g => cRandom g = false \/ NCats (cMap g) <= 10 end.

(** What a search over one feature promises. *)
Definition promise {A : arith} {St} (ready : St -> Prop) (f : feature) (cases : list nat) (leaf : nat)
    (al : allocs St) (r : found A St) : Prop :=
  Permutation cases (fCases r) /\ keeps ready al (fAl r) /\
  (nltb A (least A) (fDec r) = true -> code_fits f (fCode r)) /\
  (nltb A (least A) (fDec r) = true -> faithful f cases -> legal f (fCode r) leaf cases) /\
  (fConst r = true -> nltb A (least A) (fDec r) = false) /\
  (fConst r = true -> deterministic f -> hopeless f leaf cases).
