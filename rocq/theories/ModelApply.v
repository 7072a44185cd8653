(** The command applyforest from a loaded matrix and forest to its files
    (applyforest/applyforest.go). *)
From Verif Require Import Go F64 ModelFeature ModelText ModelMatrix ModelTree ModelBallot ModelCommands ModelCommands2.
Local Open Scope string_scope.
Local Open Scope nat_scope.
Local Open Scope list_scope.

Section Applyforest.
  (** strconv.ParseFloat(s, 64), utils.go Expit and fmt %v of a float64 *)
  Variable ParseFloat : string -> option f64.
  Variable Expit : f64 -> f64.
  Variable fmtF : f64 -> string.

  (** applyforest/applyforest.go:69-71 [tree.Vote(data, bb)] for all trees: the votes cast, in
      order.  A tree is its root and its Weight. *)
  Definition forest_votes (fm : fmatrix) (trees : list (node * f64)) : res ballots :=
    foreach trees (fun '((root, weight) : node * f64) bb =>
      let* (_, bb) := TreeVote fm root weight bb in Ok bb) [].

  (** fmt %v of what is printed *)
  Definition shown (p : printed F64) : string :=
    match p with PNum x => fmtF x | PStr s => s end.

  (** applyforest/applyforest.go:79-108: the file of -preds, appended row by row; [iters i] is
      the iteration order of the map of case [i] *)
  Definition preds_file (fm : fmatrix) (sum expit : bool) (target : string) (intercept : f64) (bb : box F64)
      (iters : nat -> ballot F64) : res bytes :=
    for_up (length (fmLabels fm)) 0 (fun i out =>
      let* l := get (fmLabels fm) i in
      let* actual := match assoc target (fmMap fm) with
                     | Some t => let* f := get (fmData fm) t in fGetStr fmtF f i
                     | None => Ok "NA"
                     end in
      let* result := apply_result F64 Expit sum expit intercept bb i (iters i) in
      Ok (out ++ tsv_line [l; shown result; actual])) [].

  (** applyforest/applyforest.go:110-137: the file of -votes.  The code prints a row field by
      field with a tab before every field but the first. *)
  Definition votes_file (fm : fmatrix) (bb : box F64) : res bytes :=
    let* (cats, rows) := vote_totals F64 bb in
    foreach (combine (seq 0 (length rows)) rows) (fun '((i, row) : nat * list f64) out =>
      let* l := get (fmLabels fm) i in
      Ok (out ++ tsv_line (l :: map fmtF row))) (tsv_line ("." :: cats)).

  Definition actual_of (f : feature) : actual F64 :=
    match f with FNum f => @ANum F64 (nData f) (nMissing f) | FCat f => ACat f end.

  Record outputs := mkOut { oError : option f64; oPreds : bytes; oVotes : bytes }.
  (** applyforest/applyforest.go:57-138 with the flags -sum, -mean, -mode and -expit, and with
      both files asked for if [preds], [votes]; [None] is log.Fatal *)
  Definition applyforest (fm : fmatrix) (sum num cat expit preds votes : bool) (target : string) (intercept : f64)
      (trees : list (node * f64)) (iters : nat -> ballot F64) : res (option outputs) :=
    let* first := get (fmData fm) 0 in
    let* cast := forest_votes fm trees in
    let* bb := box_votes F64 ParseFloat (apply_box F64 sum num cat target (fLength first)) cast in
    let* error := match assoc target (fmMap fm) with
                  | Some t => let* f := get (fmData fm) t in
                              let* e := apply_error F64 bb (actual_of f) iters in
                              Ok (match e with Some e => Some (Some e) | None => None end)
                  | None => Ok (Some None)
                  end in
    match error with
    | None => Ok None
    | Some error =>
        let* p := if preds then preds_file fm sum expit target intercept bb iters else Ok [] in
        let* v := if votes then votes_file fm bb else Ok [] in
        Ok (Some (mkOut error p v))
    end.
End Applyforest.
