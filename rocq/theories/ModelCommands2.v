(** Model of what growforest does around its trees: preparing the data, the out of
    bag votes, the files with importance scores and out of bag predictions
    (growforest/growforest.go), and of opening a data file (featurematrix.go).

    Flags are given parsed, regular expressions as predicates, and files as what is
    written to them.  One worker: the trees come one after the other. *)
From Verif Require Import Go F64 ModelFeature ModelSample ModelSplit ModelTree ModelBallot ModelGrow ModelMatrix ModelText ModelExport ModelCommands.
Local Open Scope string_scope.
Local Open Scope nat_scope.
Local Open Scope list_scope.

(** ** Preparing the data *)

(** densenumfeature.go:593-608, densecatfeature.go:1146-1161 Shuffle *)
Definition fShuffle (rnd : nat -> nat) (f : feature) : res feature :=
  match f with
  | FNum f => let* g := nShuffle rnd f in Ok (FNum g)
  | FCat f => let* g := cShuffle rnd f in Ok (FCat g)
  end.
(** [data.Data[i].Shuffle()]; [rnd i] are the draws made for feature [i] *)
Definition shuffle_at (rnd : nat -> nat -> nat) (i : nat) (data : list feature) : res (list feature) :=
  let* f := get data i in
  let* g := fShuffle (rnd i) f in
  set data i g.

(** growforest/growforest.go:317-341: -impute, -permutate and -shuffleRE *)
Definition prepare (impute permutate : bool) (shuffleRE : option (string -> bool)) (targeti : nat)
    (rnd : nat -> nat -> nat) (fm : fmatrix) : res fmatrix :=
  let* fm := if impute then fmImputeMissing fm else Ok fm in
  let* data := if permutate then shuffle_at rnd targeti (fmData fm) else Ok (fmData fm) in
  let* data :=
    match shuffleRE with
    | None => Ok data
    | Some re =>
        for_up (length data) 0 (fun i data =>
          let* f := get data i in
          if negb (targeti =? i) && re (fName f) then shuffle_at rnd i data else Ok data) data
    end in
  Ok (mkFM data (fmMap fm) (fmLabels fm)).

(** ** Out of bag votes *)

(** A tree that has been grown: its cases (with repetitions), its root and its Weight. *)
Definition trained : Type := list nat * node * f64.

(** growforest/growforest.go:651-662, 693-695: the votes of one tree of the last forest *)
Definition oob_tree (fm : fmatrix) (nCases : nat) (t : trained) (bb : ballots) : res ballots :=
  let '(sample, root, weight) := t in
  let* oob := oob_list nCases sample in
  let* (_, bb) := VoteCases fm root weight oob bb in
  Ok bb.
Definition oob_votes (fm : fmatrix) (nCases : nat) (trees : list trained) : res ballots :=
  foreach trees (oob_tree fm nCases) [].

Section Oob.
  Variable N : arith.
  Variable ParseFloat : string -> option N.
  (** growforest/growforest.go:857-859: the rows of the file of -caseoob; [iters i] is the
      iteration order of the map of case [i], [actual i] is unboostedTarget.GetStr(i) *)
  Definition caseoob_rows (labels : list string) (bb : box N) (iters : nat -> ballot N) (actual : nat -> res string) (n : nat)
    : res (list (string * printed N * string)) :=
    for_up n 0 (fun i rows =>
      let* l := get labels i in
      let* t := box_tally N bb i (iters i) in
      let* a := actual i in
      Ok (rows ++ [(l, t, a)])) [].
End Oob.

(** ** The file of importance scores *)
Section Importance.
  Variable A : arith.
  (** growforest/growforest.go:674-681: after a tree, for every feature; the state is
      mmdpnt and depthUsed *)
  Definition note_depths (s : list (rmean A) * list nat) : res (list (rmean A) * list nat) :=
    for_up (length (snd s)) 0 (fun i '((mmd, used) : list (rmean A) * list nat) =>
      let* v := get used i in
      if negb (v =? 0) then
        let* rm := get mmd i in
        let* mmd := set mmd i (rmAdd A (nofZ A (Z.of_nat v)) rm) in
        let* used := set used i 0 in
        Ok (mmd, used)
      else Ok (mmd, used)) s.
  (** The same for a number of trees; [grow k] is what growing tree [k] makes of depthUsed *)
  Definition note_trees (grow : nat -> list nat -> list nat) (nTrees : nat) (s : list (rmean A) * list nat) :=
    for_up nTrees 0 (fun k '((mmd, used) : list (rmean A) * list nat) => note_depths (mmd, grow k used)) s.

  Record imp_row := mkImpRow {
    irName : string; irMean : A; irCount : A; irPerTree : A; irPerUse : A; irTrees : A; irDepth : A
  }.
  (** growforest/growforest.go:880-885.  The count of a RunningMean is a float64. *)
  Definition importance_rows (names : list string) (imps mmds : list (rmean A)) (nTrees : nat) : res (list imp_row) :=
    for_up (length imps) 0 (fun i rows =>
      let* v := get imps i in
      let mean := rmMean v in let count := rmCount v in
      let* d := get mmds i in
      let meanMinDepth := rmMean d in let treeCount := rmCount d in
      let* name := get names i in
      Ok (rows ++ [mkImpRow name mean count
                     (ndiv A (nmul A mean count) (nofZ A (Z.of_nat nTrees)))
                     (ndiv A (nmul A mean count) treeCount) treeCount meanMinDepth])) [].
End Importance.
Arguments mkImpRow {A}. Arguments irName {A}. Arguments irMean {A}. Arguments irCount {A}. Arguments irPerTree {A}.
Arguments irPerUse {A}. Arguments irTrees {A}. Arguments irDepth {A}.

(** ** Opening a data file *)

(** What a name leads to: nothing that can be opened, a file, or a zip archive with its
    entries, [None] for one that cannot be opened, and its bytes. *)
Inductive file := FNone | FPlain (b : bytes) | FZip (entries : list (option bytes)) (b : bytes).

(** strings.HasSuffix *)
Definition HasSuffix (s suffix : string) : bool := has_prefix (rev (B suffix)) (rev (B s)).

Section Load.
  Variable ParseFloat : string -> option f64.
  Variable itoa : nat -> string.
  Variable Atoi : bytes -> option Z.

  (** featurematrix.go:424-439: by the name's ending; [None] is a nil matrix *)
  Definition load_plain (name : string) (b : bytes) : res (option fmatrix) :=
    if HasSuffix name ".arff" then ParseARFF ParseFloat itoa b
    else if HasSuffix name ".libsvm" then
      let* fm := ParseLibSVM ParseFloat itoa Atoi b in Ok (Some fm)
    else let* fm := ParseAFM ParseFloat itoa b in Ok (Some fm).
  (** featurematrix.go:411-439 LoadAFM; [None] is an error or a nil matrix *)
  Definition LoadAFM (name : string) (f : file) : res (option fmatrix) :=
    match f with
    | FNone => Ok None
    | FPlain b => load_plain name b
    | FZip entries b =>
        let* e := get entries 0 in
        match e with
        | Some c => let* fm := ParseAFM ParseFloat itoa c in Ok (Some fm)
        | None => load_plain name b
        end
    end.
End Load.

(** ** The error printed *)
Section Error.
  Variable N : arith.
  (** The feature of the data that has the name of the target. *)
  Inductive actual := ANum (data : list N) (miss : list bool) | ACat (f : catF).

  (** applyforest/applyforest.go:76-77 [bb.TallyError(data.Data[targeti])]; [None] is
      log.Fatal.  numballotbox.go:91 asserts that the feature is numerical for every known
      case, catballotbox.go:91 that it is categorical; sumballotbox.go:75-79 does not look
      at it. *)
  Definition apply_error (bb : box N) (t : actual) (iters : nat -> ballot N) : res (option N) :=
    match bb, t with
    | BSum b, ANum data miss => Ok (Some (sumTallyError N b data miss))
    | BSum b, ACat f => Ok (Some (sumTallyError N b [] (cMissing f)))
    | BNum b, ANum data miss => numTallyError N b data miss
    | BNum b, ACat f => if existsb negb (cMissing f) then Panic else Ok None
    | BCat b, ANum _ _ => Panic
    | BCat b, ACat f => let* e := catTallyError N b f iters in Ok (Some e)
    end.
End Error.
Arguments ANum {N}. Arguments ACat {N}.

(** ** The cases of one tree *)
Section TreeCases.
  (** strconv.ParseFloat(s, 64), strconv.ParseInt(s, 0, 0) and int(math.Ceil(x)) *)
  Variable ParseFloat : string -> option f64.
  Variable ParseInt : string -> option Z.
  Variable ceil : f64 -> Z.

  Inductive bagger := BPlain (cs : list (list nat)) | BSecond (s : secondary).

  (** growforest/growforest.go:343-352; [by] is the feature -balanceby names, if it is
      given.  With both flags the first sampler is built and dropped. *)
  Definition bSampler (balance : bool) (by_ : option feature) (f : feature) : res (option bagger) :=
    let* b := if balance then
                match f with FCat c => let* cs := newBalanced c in Ok (Some (BPlain cs)) | FNum _ => Panic end
              else Ok None in
    match by_ with
    | None => Ok b
    | Some g =>
        match f, g with
        | FCat c, FCat d => let* s := newSecondary c d in Ok (Some (BSecond s))
        | _, _ => Panic
        end
    end.

  (** growforest/growforest.go:343-352, 354-362, 381-384, 605-611 and 621-649, for a tree
      whose draws are [rnd]; [f] is the target before it is wrapped.  [fuel] bounds the draws
      of the plain loop. *)
  Definition tree_cases (nSamples : string) (nobag balance : bool) (by_ : option feature)
      (rnd : nat -> nat) (f : feature) (nCases fuel : nat) : res (list nat) :=
    let* bs := bSampler balance by_ f in
    let* known := count_nonmissing f nCases in
    let n := Z.to_nat (nSamples_of ParseFloat ParseInt ceil nSamples (Z.of_nat known)) in
    if nobag then nobag_cases rnd f nCases known n
    else match bs with
         | Some (BPlain cs) => balancedSample cs rnd n
         | Some (BSecond s) => secondarySample s rnd n
         | None => bag rnd f nCases n fuel
         end.
End TreeCases.
