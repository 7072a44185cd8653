(** What matrices and their files are said to hold. *)
From Verif Require Import Go F64 ModelFeature FeatureSpec ModelText.
Local Open Scope string_scope.
Local Open Scope nat_scope.
Local Open Scope list_scope.

(** ** Values *)
Inductive value := VMissing | VNum (x : f64) | VCat (s : string).
(** What a feature says about case [i]; [None] outside the feature. *)
Definition value_at (f : feature) (i : nat) : option value :=
  match f with
  | FNum f => match nth_error (nMissing f) i, nth_error (nData f) i with
              | Some true, Some _ => Some VMissing
              | Some false, Some x => Some (VNum x)
              | _, _ => None
              end
  | FCat f => match nth_error (cMissing f) i, nth_error (cData f) i with
              | Some true, Some _ => Some VMissing
              | Some false, Some c => option_map VCat (nth_error (cmBack (cMap f)) c)
              | _, _ => None
              end
  end.
Definition is_numerical (f : feature) : bool := match f with FNum _ => true | FCat _ => false end.

(** ** Texts *)
(** Neither tab nor newline, carriage return or double quote. *)
Definition plain (s : string) : Prop :=
  Forall (fun c => c <> tab /\ c <> nl /\ c <> ascii_of_nat 13 /\ c <> quote) (B s).
(** A name says the kind of its feature. *)
Definition starts (p s : string) : Prop := exists s', s = (p ++ s')%string.
Definition typed_name (f : feature) : Prop :=
  2 <= String.length (fName f) /\ (is_numerical f = true <-> starts "N:" (fName f)).
Definition looks_typed (s : string) : Prop := starts "N:" s \/ starts "C:" s \/ starts "B:" s.

(** The name table: every name leads to a column of that name, and every column's name
    is in the table. *)
Definition names_ok (fm : fmatrix) : Prop :=
  (forall name k, assoc name (fmMap fm) = Some k -> exists f, nth_error (fmData fm) k = Some f /\ fName f = name) /\
  (forall f, In f (fmData fm) -> exists k, assoc (fName f) (fmMap fm) = Some k).

(** ** Files *)
(** A cell that its text gives back, for a number format [fmtF] read by [PF]. *)
Definition cell_ok (is_missing_text : string -> Prop) (PF : string -> option f64) (fmtF : f64 -> string) (v : value) : Prop :=
  match v with
  | VMissing => True
  | VNum x => PF (fmtF x) = Some x /\ plain (fmtF x)
  | VCat s => plain s /\ ~ is_missing_text s
  end.
(** A table: features (name and cells) by cases (labels). *)
Record table := mkTable { tCorner : string; tLabels : list string; tRows : list (string * list string) }.
Definition rectangular (t : table) : Prop := Forall (fun r => length (snd r) = length (tLabels t)) (tRows t).
(** The records of its file with features in rows, and with features in columns. *)
Definition row_file (t : table) : list (list string) :=
  (tCorner t :: tLabels t) :: map (fun r => fst r :: snd r) (tRows t).
Definition col_file (t : table) : list (list string) :=
  (tCorner t :: map fst (tRows t)) ::
  map (fun '((j, l) : nat * string) => l :: map (fun r => nth j (snd r) "") (tRows t))
      (combine (seq 0 (length (tLabels t))) (tLabels t)).
(** A text of such records. *)
Definition file_of (rs : list (list string)) : bytes := concat (map (fun r => join [tab] (map B r) ++ [nl]) rs).

(** What a cell of a file means for a feature of a name. *)
Inductive means (PF : string -> option f64) (name text : string) : value -> Prop :=
| means_number x : starts "N:" name -> PF text = Some x -> means PF name text (VNum x)
| means_no_number : starts "N:" name -> PF text = None -> means PF name text VMissing
| means_no_category : ~ starts "N:" name -> is_token text -> means PF name text VMissing
| means_category : ~ starts "N:" name -> ~ is_token text -> means PF name text (VCat text).
(** A quote inside a field: not at its start. *)
Definition bare_quote (r : list string) : Prop := exists c s, In (String c s) r /\ c <> quote /\ In quote (B s).

(** ** Categorical features *)
(** The name table of a categorical feature agrees with its list of names. *)
Definition consistent (f : catF) : Prop :=
  forall v n, assoc v (cmMap (cMap f)) = Some n <-> nth_error (cmBack (cMap f)) n = Some v.
(** Values and missing flags belong to the same cases. *)
Definition aligned (f : feature) : Prop :=
  match f with FNum f => length (nData f) = length (nMissing f) | FCat f => length (cData f) = length (cMissing f) end.
