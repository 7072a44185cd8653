(** What forest files are said to keep. *)
From Verif Require Import Go F64 ModelFeature ModelTree TreeSpec ModelText ModelFile.
Local Open Scope string_scope.
Local Open Scope nat_scope.
Local Open Scope list_scope.

(** ** Texts the format can hold *)
(** No comma, equals sign, double quote or newline. *)
Definition inert (s : bytes) : Prop :=
  Forall (fun c => c <> ","%char /\ c <> "="%char /\ c <> quote /\ c <> nl) s.
(** The first and the last byte, if any, are visible ASCII characters. *)
Definition visible (c : ascii) : Prop := 33 <= nat_of_ascii c <= 126.
Definition visible_ends (s : bytes) : Prop :=
  (forall c s', s = c :: s' -> visible c) /\ (forall c s', s = s' ++ [c] -> visible c).
Definition clean (s : bytes) : Prop := inert s /\ visible_ends s.
(** A category: no colon either, but blanks at the ends are fine. *)
Definition category (s : string) : Prop := inert (B s) /\ ~ In ":"%char (B s).

(** ** Trees the format can hold *)
Fixpoint texts_ok (n : node) : Prop :=
  match n with
  | Nil => True
  | Node d l r m =>
      clean (B (dPred d)) /\
      match dSpl d with
      | None => True
      | Some s => clean (B (sFeature s)) /\
          (sNumerical s = false -> sLeft s <> [] /\ NoDup (sLeft s) /\ Forall category (sLeft s))
      end /\ texts_ok l /\ texts_ok r /\ texts_ok m
  end.
(** Nodes without a splitter have no children. *)
Fixpoint leaves_bare (n : node) : Prop :=
  match n with
  | Nil => True
  | Node d l r m => (dSpl d = None -> l = Nil /\ r = Nil /\ m = Nil) /\ leaves_bare l /\ leaves_bare r /\ leaves_bare m
  end.
Fixpoint no_missing_branch (n : node) : Prop :=
  match n with
  | Nil => True
  | Node d l r m => m = Nil /\ no_missing_branch l /\ no_missing_branch r
  end.
(** Nodes with a missing branch have a right branch (grown trees do). *)
Fixpoint right_branches (n : node) : Prop :=
  match n with
  | Nil => True
  | Node d l r m => (m <> Nil -> r <> Nil) /\ right_branches l /\ right_branches r
  end.

(** ** What is read *)
(** Two splitters are the same; the category set is a set. *)
Definition same_splitter (a b : option splitter) : Prop :=
  match a, b with
  | None, None => True
  | Some a, Some b => sFeature a = sFeature b /\ sNumerical a = sNumerical b /\
      (if sNumerical b then sValue a = sValue b
       else NoDup (sLeft a) /\ forall c, In c (sLeft a) <-> In c (sLeft b))
  | _, _ => False
  end.
(** The nodes of heap [h] from [k] on are tree [n]. *)
Inductive holds (h : list hnode) : option nat -> node -> Prop :=
| holds_nil : holds h None Nil
| holds_node k x d l r m :
    nth_error h k = Some x -> hPred x = dPred d -> same_splitter (hSpl x) (dSpl d) ->
    holds h (hL x) l -> holds h (hR x) r -> holds h (hM x) m -> holds h (Some k) (Node d l r m).
(** No node is reached by two paths, and none is left over. *)
Definition unshared (h : list hnode) (root : nat) : Prop :=
  (forall q q' k, find h root q = Some k -> find h root q' = Some k -> q = q') /\
  (forall k, k < length h -> exists q, find h root q = Some k).

(** ** Numbers *)
(** What is assumed of printing and parsing numbers: a printed number can be part of a
    line and parses to itself. *)
Definition numbers_ok (fmtF : f64 -> bytes) (PF : bytes -> option f64) (itoa : nat -> bytes) : Prop :=
  (forall x, clean (fmtF x) /\ PF (fmtF x) = Some x) /\ (forall i, clean (itoa i)).
(** A weight that is not negative is written, otherwise -1 is read. *)
Definition weight_ok (w : f64) : Prop := fleb f0 w = true \/ w = fneg f1.

(** The tree that a file holds: the children of nodes without splitter are not written,
    and the right branch takes the place of the missing branch. *)
Fixpoint as_filed (n : node) : node :=
  match n with
  | Nil => Nil
  | Node d l r m =>
      match dSpl d with
      | None => Node d Nil Nil Nil
      | Some _ => Node d (as_filed l) (as_filed r) (if isNil m then Nil else as_filed r)
      end
  end.
