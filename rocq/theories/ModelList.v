(** The files of -blacklist, from their bytes to the features that are left out
    (growforest/growforest.go, utils/nfold/main.go, utils/toafm/main.go). *)
From Verif Require Import Go F64 ModelFeature ModelText ModelMatrix ModelExport ModelQuoted ModelCommands ModelNfold.
Local Open Scope string_scope.
Local Open Scope nat_scope.
Local Open Scope list_scope.

(** growforest/growforest.go:249-256, utils/nfold/main.go:103-112, utils/toafm/main.go:46-55: the
    first fields [id[0]] of the records.  [n] is the number of fields of the record before
    (csv.Reader.FieldsPerRecord, 0 at first); another number is an error, and every error is
    log.Fatal ([None]). *)
Fixpoint first_fields (n : nat) (rs : list (option (list bytes))) : res (option (list string)) :=
  match rs with
  | [] => Ok (Some [])
  | None :: _ => Ok None
  | Some fs :: rs =>
      if (n =? 0) || (length fs =? n) then
        let* id := get fs 0 in
        let* ids := first_fields (length fs) rs in
        Ok (option_map (cons (T id)) ids)
      else Ok None
  end.
Definition list_ids (input : bytes) : res (option (list string)) :=
  let* rs := tsv_records (S (length (unix input))) (unix input) in first_fields 0 rs.

(** growforest/growforest.go:239-307 with the bytes of the file, if one is named *)
Definition grow_select (fm : fmatrix) (blacklist : option bytes) (target : string) (blockRE includeRE : option (string -> bool))
  : res (option (nat * list bool * Z)) :=
  let* ids := match blacklist with Some input => list_ids input | None => Ok (Some []) end in
  match ids with
  | None => Ok None
  | Some ids => select_features (fmMap fm) (fmData fm) ids target blockRE includeRE
  end.
(** utils/nfold/main.go:96-156 with the bytes of the file, if one is named *)
Definition nfold_select (fm : fmatrix) (blacklist : option bytes) (target : string) (maxcats : Z) (impute onehot num : bool)
  : res (option fmatrix) :=
  let* ids := match blacklist with Some input => list_ids input | None => Ok (Some []) end in
  match ids with
  | None => Ok None
  | Some ids => let* fm := nfold_prepare target ids maxcats impute onehot num fm in Ok (Some fm)
  end.
(** utils/toafm/main.go:32-171 after the data was loaded, with the bytes of the list *)
Definition toafm_select (itoa : nat -> string) (fmtF : f64 -> string) (anon libsvm : string) (blacklist : option bytes) (fm : fmatrix) : res (option bytes) :=
  let* ids := match blacklist with Some input => list_ids input | None => Ok (Some []) end in
  match ids with
  | None => Ok None
  | Some ids => toafm itoa fmtF anon libsvm ids fm
  end.
