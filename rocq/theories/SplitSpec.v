(** What a three way split of a case list is, independently of the loop. *)
From Verif Require Import Go F64 ModelFeature ModelSplit.

(** [isL], [isM] classify the cases: missing first, then left or right. *)
Record three_way (isL isM : nat -> bool) (cases : list nat) (r : splitres) : Prop := {
  tw_layout : srCases r = srL r ++ srM r ++ srR r;
  tw_perm : Permutation cases (srCases r);
  tw_left : Permutation (srL r) (filter (fun c => negb (isM c) && isL c) cases);
  tw_missing : Permutation (srM r) (filter isM cases);
  tw_right : Permutation (srR r) (filter (fun c => negb (isM c) && negb (isL c)) cases)
}.

(** The missing status of a case, and the flag telling that the mask matters. *)
Definition nmissing (f : numF) (c : nat) : bool := nth c (nMissing f) false.
Definition cmissing (f : catF) (c : nat) : bool := nth c (cMissing f) false.
Definition fmissing (f : feature) (c : nat) : bool :=
  match f with FNum f => nmissing f c | FCat f => cmissing f c end.

(** HasMissing is set whenever some case is missing. *)
Definition flag_sound (f : feature) : Prop :=
  forall c, fmissing f c = true -> fMissingVals f = true.

(** Case [c] exists in the feature: both arrays are long enough and, for a
    categorical feature, the category number has a name. *)
Definition has_case (f : feature) (c : nat) : Prop :=
  match f with
  | FNum f => c < length (nData f) /\ c < length (nMissing f)
  | FCat f => c < length (cData f) /\ c < length (cMissing f) /\
              nth c (cData f) 0 < length (cmBack (cMap f))
  end.

(** The value of a case. *)
Definition nvalue (f : numF) (c : nat) : f64 := nth c (nData f) S754_nan.
Definition cvalue (f : catF) (c : nat) : string :=
  nth (nth c (cData f) 0) (cmBack (cMap f)) EmptyString.

(** Which non-missing cases a coded split sends left. *)
Definition coded_left (f : feature) (code : coded) (c : nat) : bool :=
  match f, code with
  | FNum f, CNum x => fleb (nvalue f c) x
  | FCat f, CInt z => (nth c (cData f) 0 <? 64) && Z.testbit z (Z.of_nat (nth c (cData f) 0))
  | FCat f, CBig z => Z.testbit z (Z.of_nat (nth c (cData f) 0))
  | _, _ => false
  end.

(** Codes that fit the type of the feature. *)
Definition code_fits (f : feature) (code : coded) : Prop :=
  match f, code with
  | FNum _, CNum _ => True
  | FCat _, CInt _ => True
  | FCat _, CBig _ => True
  | _, _ => False
  end.

(** Which non-missing cases a splitter sends left. *)
Definition splitter_left (f : feature) (s : splitter) (c : nat) : bool :=
  match f with
  | FNum f => fleb (nvalue f c) (sValue s)
  | FCat f => if in_dec string_dec (cvalue f c) (sLeft s) then true else false
  end.

(** A category table without repeated names. *)
Definition names_distinct (f : feature) : Prop :=
  match f with FNum _ => True | FCat f => NoDup (cmBack (cMap f)) end.
