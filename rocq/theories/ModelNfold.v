(** The command nfold from the matrix it loaded to the files it writes
    (utils/nfold/main.go). *)
From Verif Require Import Go F64 ModelFeature ModelTargets2 ModelText ModelMatrix ModelExport ModelFold.
Local Open Scope string_scope.
Local Open Scope nat_scope.
Local Open Scope list_scope.

(** utils/nfold/main.go:96-126.  [ids] are the first fields of the lines of the file -blacklist
    names, if there is one; reading that file is not modelled. *)
Definition nfold_blacklist (target : string) (lookup : list (string * nat)) (ids : list string) (n : nat) : res (list bool) :=
  foreach ids (fun id (bl : list bool) =>
    if (id =? target)%string then Ok bl
    else match assoc id lookup with
         | None => Ok bl
         | Some i => let* b := get bl i in (if b then Ok bl else set bl i true)
         end) (repeat false n).

(** utils/nfold/main.go:128-140 *)
Definition nfold_keep (maxcats : Z) (bl : list bool) (data : list feature) : list feature * list (string * nat) :=
  fold_left (fun (a : list feature * list (string * nat)) (bf : bool * feature) =>
    if negb (fst bf) && ((maxcats =? -1)%Z || (Z.of_nat (fNCats (snd bf)) <=? maxcats)%Z)
    then (fst a ++ [snd bf], (fName (snd bf), length (fst a)) :: snd a)
    else a) (combine bl data) ([], []).

(** utils/nfold/main.go:96-156: the matrix that is written *)
Definition nfold_prepare (target : string) (ids : list string) (maxcats : Z) (impute onehot num : bool) (fm : fmatrix) : res fmatrix :=
  let* bl := nfold_blacklist target (fmMap fm) ids (length (fmData fm)) in
  let '(newdata, newmap) := nfold_keep maxcats bl (fmData fm) in
  let data := mkFM newdata newmap (fmLabels fm) in
  let* data := if impute then fmImputeMissing data else Ok data in
  nfold_encode onehot num data.

(** The files of one fold, each as training file and testing file.  Their names,
    utils/nfold/main.go:234-235, are not modelled: they are taken to be different. *)
Record fold_out := mkFold { foArff : option (bytes * bytes); foAfm : option (bytes * bytes); foSvm : option (bytes * bytes) }.

Section Nfold.
  Variable itoa : nat -> string.
  Variable fmtF : f64 -> string.

  (** utils/nfold/main.go:259-260: one libsvm file; the error that there is no such target is
      dropped and leaves the file empty. *)
  Definition svm_file (encoded : fmatrix) (cases : list nat) (target : string) : res (fmatrix * bytes) :=
    let* w := WriteLibSvmCases itoa fmtF encoded cases target in
    Ok (match w with Some r => r | None => (encoded, []) end).

  (** utils/nfold/main.go:232-264.  If no feature has categories [encoded] is [data], and what
      WriteLibSvmCases does to the one it does to the other ([same]).  Otherwise [encoded] shares its
      numerical features and the flags of absent values with [data]; that sharing is not modelled
      here but with [impute_shared] (ModelExport.v). *)
  Definition nfold_write (foldis : list (list nat)) (folds : nat) (target : string) (arff svm all same : bool)
      (data encoded : fmatrix) : res (list fold_out) :=
    let* (_, _, outs) := for_up folds 0 (fun i '((data, encoded, outs) : fmatrix * fmatrix * list fold_out) =>
      let* trainis := nfold_train foldis folds i in
      let* testis := get foldis i in
      let* a := if arff || all then
                  let* te := WriteArffCases fmtF data testis target in
                  let* tr := WriteArffCases fmtF data trainis target in
                  Ok (Some (tr, te))
                else Ok None in
      let* m := if (negb svm && negb arff) || all then
                  let* te := WriteCases fmtF data testis in
                  let* tr := WriteCases fmtF data trainis in
                  Ok (Some (tr, te))
                else Ok None in
      let* (encoded, s) := if svm || all then
                  let* (encoded, te) := svm_file encoded testis target in
                  let* (encoded, tr) := svm_file encoded trainis target in
                  Ok (encoded, Some (tr, te))
                else Ok (encoded, None) in
      Ok (if same then encoded else data, encoded, outs ++ [mkFold a m s])) (data, encoded, []) in
    Ok outs.

  (** utils/nfold/main.go:90-264 after the matrix was loaded *)
  Definition nfold_main (rnd : nat -> nat -> nat) (target : string) (ids : list string) (maxcats : Z)
      (impute onehot num : bool) (folds : nat) (unstratified arff svm all : bool) (fm : fmatrix) : res (list fold_out) :=
    let* data := nfold_prepare target ids maxcats impute onehot num fm in
    let* targetf := match assoc target (fmMap data) with
                    | Some i => let* f := get (fmData data) i in Ok (Some f)
                    | None => Ok None
                    end in
    let* foldis := nfold_folds rnd folds (length (fmLabels data)) targetf unstratified in
    let encode := existsb (fun f => 0 <? fNCats f) (fmData data) in
    let* encoded := if encode && (svm || all) then fmEncodeToNum data else Ok data in
    nfold_write foldis folds target arff svm all (negb encode) data encoded.
End Nfold.
