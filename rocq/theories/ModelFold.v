(** Model of the assignment of cases to folds in utils/nfold/main.go and of its
    -onehot step. *)
From Verif Require Import Go F64 ModelFeature ModelSample ModelMatrix.
Local Open Scope nat_scope.
Local Open Scope list_scope.

(** utils/nfold/main.go:191-193 = 210-213: append the window
    [[j*size, (j+1)*size)] of the shuffled cases to fold [j]. *)
Definition fill_fold (cases : list nat) (size j : nat) (fold : list nat) : res (list nat) :=
  for_up size (j * size) (fun k fold => let* c := get cases k in Ok (fold ++ [c])) fold.

(** utils/nfold/main.go:190-194 = 209-214: all folds in turn. *)
Definition assign (cases : list nat) (folds size : nat) (foldis : list (list nat)) : res (list (list nat)) :=
  for_up folds 0 (fun j fs =>
    let* fold := get fs j in
    let* fold' := fill_fold cases size j fold in
    set fs j fold') foldis.

(** An integer division [a / b] of non-negative ints: panics for [b = 0]. *)
Definition idiv (a b : nat) : res nat := if b =? 0 then Panic else Ok (a / b).

(** utils/nfold/main.go:184-196: the cases are shuffled and dealt out in blocks. *)
Definition fold_unstratified (rnd : nat -> nat) (ncases folds foldsize : nat) (foldis : list (list nat)) : res (list (list nat)) :=
  let* cases := for_up ncases 0 (fun i cs => set cs i i) (repeat 0 ncases) in
  let* (cases', _) := SampleFirstN rnd cases (length cases) 0 in
  assign cases' folds foldsize foldis.

(** utils/nfold/main.go:197-217: one class after the other, each shuffled with
    its own draws [rnd i] and dealt out in blocks of its own size. *)
Definition fold_stratified (rnd : nat -> nat -> nat) (target : catF) (folds : nat) (foldis : list (list nat)) : res (list (list nat)) :=
  let* classes := newBalanced target in
  for_up (length classes) 0 (fun i fs =>
    let* cs := get classes i in
    let* (cs', _) := SampleFirstN (rnd i) cs (length cs) 0 in
    let* size := idiv (length cs') folds in
    assign cs' folds size fs) foldis.

(** utils/nfold/main.go:158-217.  [target] is the feature named by -target, if
    there is one; [unstratified] is the flag.  The draws of the unstratified
    shuffle are [rnd 0]. *)
Definition nfold_folds (rnd : nat -> nat -> nat) (folds ncases : nat) (target : option feature) (unstratified : bool) : res (list (list nat)) :=
  let* foldsize := idiv ncases folds in
  let foldis := repeat [] folds in
  match target, unstratified with
  | Some (FCat t), false => fold_stratified rnd t folds foldis
  | _, _ => fold_unstratified (rnd 0) ncases folds foldsize foldis
  end.

(** utils/nfold/main.go:237-242: the training cases of fold [i]. *)
Definition nfold_train (foldis : list (list nat)) (folds i : nat) : res (list nat) :=
  for_up folds 0 (fun j trainis =>
    if i =? j then Ok trainis
    else let* f := get foldis j in Ok (trainis ++ f)) [].

(** utils/nfold/main.go:148-156: the encodings asked for by -onehot and -num.
    The result of OneHot is not assigned. *)
Definition nfold_encode (onehot num : bool) (data : fmatrix) : res fmatrix :=
  let* data := (if onehot then let* _ := fmOneHot data in Ok data else Ok data) in
  if num then fmEncodeToNum data else Ok data.
