(** Forest files: forestwriter.go and forestreader.go. *)
From Verif Require Import Go F64 ModelFeature ModelTree ModelText.
Local Open Scope string_scope.
Local Open Scope nat_scope.
Local Open Scope list_scope.

(** tree.go:15-20 Tree *)
Record wtree := mkWT { wtRoot : node; wtTarget : string; wtWeight : f64 }.
(** forrest.go:11-17 Forest *)
Record wforest := mkWF { wfTarget : string; wfIntercept : f64; wfTrees : list wtree }.

Section Write.
  (** the verb v of fmt.Sprintf for a float64 and an int *)
  Variable fmtF : f64 -> bytes.
  Variable itoa : nat -> bytes.
  (** The order in which [range] visits the keys of a map, in tree [i] at a path
      (an arbitrary permutation). *)
  Variable ord : nat -> bytes -> list string -> list string.

  (** forestwriter.go:101-107 DescribeMap *)
  Definition DescribeMap (keys : list string) : bytes := [quote] ++ join (B ":") (map B keys) ++ [quote].

  (** forestwriter.go:80-98 WriteNode *)
  Definition WriteNode (i : nat) (d : nd) (path : bytes) : bytes :=
    B "NODE=" ++ path
    ++ (if (dPred d =? "")%string then [] else B ",PRED=" ++ B (dPred d))
    ++ match dSpl d with
       | None => []
       | Some s =>
           B ",SPLITTER=" ++ B (sFeature s)
           ++ (if sNumerical s
               then B ",SPLITTERTYPE=NUMERICAL,LVALUES=" ++ fmtF (sValue s) ++ B ",RVALUES=" ++ fmtF (sValue s)
               else B ",SPLITTERTYPE=CATEGORICAL,LVALUES=" ++ DescribeMap (ord i path (sLeft s)))
       end ++ [nl].

  (** forestwriter.go:61-74 WriteNodeAndChildren.  Note that the branch for missing
      values writes [n.Right]. *)
  Fixpoint WriteNodeAndChildren (i : nat) (n : node) (path : bytes) : res bytes :=
    match n with
    | Nil => Panic
    | Node d l r m =>
        let spl := match dSpl d with Some _ => true | None => false end in
        let* wl := if spl && negb (isNil l) then WriteNodeAndChildren i l (path ++ B "L") else Ok [] in
        let* wr := if spl && negb (isNil r) then WriteNodeAndChildren i r (path ++ B "R") else Ok [] in
        let* wm := if spl && negb (isNil m) then WriteNodeAndChildren i r (path ++ B "M") else Ok [] in
        Ok (WriteNode i d path ++ wl ++ wr ++ wm)
    end.

  (** forestwriter.go:42-48 WriteTreeHeader *)
  Definition WriteTreeHeader (i : nat) (target : string) (weight : f64) : bytes :=
    B "TREE=" ++ itoa i ++ B ",TARGET=" ++ [quote] ++ B target ++ [quote]
    ++ (if fleb f0 weight then B ",WEIGHT=" ++ fmtF weight else []) ++ [nl].

  (** forestwriter.go:36-39 WriteTree *)
  Definition WriteTree (t : wtree) (i : nat) : res bytes :=
    let* ns := WriteNodeAndChildren i (wtRoot t) (B "*") in
    Ok (WriteTreeHeader i (wtTarget t) (wtWeight t) ++ ns).

  (** forestwriter.go:51-57 WriteForestHeader *)
  Definition WriteForestHeader (i : nat) (target : string) (intercept : f64) : bytes :=
    B "FOREST=" ++ itoa i ++ B ",TARGET=" ++ [quote] ++ B target ++ [quote]
    ++ (if feqb intercept f0 then [] else B ",INTERCEPT=" ++ fmtF intercept) ++ [nl].

  (** forestwriter.go:26-33 WriteForest *)
  Definition WriteForest (f : wforest) : res bytes :=
    let h := if feqb (wfIntercept f) f0 then [] else WriteForestHeader 0 (wfTarget f) (wfIntercept f) in
    foreach (combine (seq 0 (length (wfTrees f))) (wfTrees f)) (fun '((i, t) : nat * wtree) out =>
      let* w := WriteTree t i in Ok (out ++ w)) h.
End Write.

(** ** Reading *)

(** A tree being read: the nodes (ModelTree.v), the root, target and weight. *)
Record rtree := mkRT { rtHeap : list hnode; rtRoot : option nat; rtTarget : string; rtWeight : f64 }.
Record rforest := mkRF { rfTarget : string; rfIntercept : f64; rfTrees : list rtree }.
(** The errors that are told apart: none, io.EOF, any other *)
Inductive goerr := ENone | EEof | EOther.

(** forestreader.go:167-186 ParseRfAcePredictorLine, one term: the clauses so far and the
    terms since a quote was opened *)
Definition clause_step (term : bytes) (st : list bytes * list bytes) : res (list bytes * list bytes) :=
  let '(clauses, inside) := st in
  let term := trim_space term in
  let quotes := count_byte quote term in
  let* (clauses, inside) :=
    if (quotes =? 1) || (0 <? length inside) then Ok (clauses, inside ++ [term])
    else if count_byte "=" term =? 0 then
      match rev clauses with
      | [] => Panic
      | last :: before => Ok (rev before ++ [last ++ B "," ++ term], inside)
      end
    else Ok (clauses ++ [term], inside) in
  if (quotes =? 1) && (1 <? length inside) then Ok (clauses ++ [join (B ",") inside], [])
  else Ok (clauses, inside).
(** forestreader.go:189-198, one clause *)
Definition assign_step (clause : bytes) (m : strmap) : res strmap :=
  let vs := map (fun v => trim_quotes (trim_space v)) (split "=" clause) in
  let* k := get vs 0 in
  let* v := get vs 1 in
  Ok ((k, v) :: m).
(** forestreader.go:163-201 ParseRfAcePredictorLine *)
Definition ParseLine (line : bytes) : res strmap :=
  let* (clauses, _) := foreach (split "," (trim_space line)) clause_step ([], []) in
  foreach clauses assign_step [].

(** Setting keys of a map[string]bool *)
Definition add_key (m : list string) (k : string) : list string :=
  if in_dec string_dec k m then m else m ++ [k].

Section Read.
  (** strconv.ParseFloat(s, 64), [None] for an error; the value is then taken to be 0
      (for a range error it is an infinity; not modelled) *)
  Variable PF : bytes -> option f64.
  Definition pf0 (s : bytes) : f64 := match PF s with Some v => v | None => f0 end.

  (** forestreader.go:121-150: splitter and prediction of a NODE line *)
  Definition node_splitter (parsed : strmap) : option splitter :=
    match lookup (B "SPLITTERTYPE") parsed with
    | None => None
    | Some stype =>
        let feature := T (lookup0 (B "SPLITTER") parsed) in
        if bytes_eqb stype (B "CATEGORICAL") then
          Some (mkSpl feature false f0 (fold_left add_key (map T (split ":" (lookup0 (B "LVALUES") parsed))) []))
        else if bytes_eqb stype (B "NUMERICAL") then
          Some (mkSpl feature true (pf0 (lookup0 (B "LVALUES") parsed)) [])
        else Some (mkSpl feature false f0 [])
    end.

  (** forestreader.go:74-156 ReadTree.  State: the input, whether a TREE line was seen,
      the tree and the forest; result: tree, forest, error and the rest of the input. *)
  Definition rt_state : Type := bytes * bool * option rtree * option rforest.
  Definition rt_result : Type := option rtree * option rforest * goerr * bytes.
  Definition read_step (st : rt_state) : res (flow rt_state rt_result) :=
    let '(input, intree, tree, forest) := st in
    match input with
    | [] => Ok (Done (tree, forest, EEof, input))
    | c :: _ =>
        if intree && (Ascii.eqb c "T" || Ascii.eqb c "F") then Ok (Done (tree, forest, ENone, input))
        else
          match read_line input with
          | None => Ok (Done (tree, forest, EEof, []))
          | Some (line, rest) =>
              let* parsed := ParseLine line in
              if has_prefix (B "FOREST") line then
                let intercept := match lookup (B "INTERCEPT") parsed with Some i => pf0 i | None => f0 end in
                Ok (Next (rest, intree, tree, Some (mkRF (T (lookup0 (B "TARGET") parsed)) intercept [])))
              else if has_prefix (B "TREE") line then
                let weight := match lookup (B "WEIGHT") parsed with Some w => pf0 w | None => fneg f1 end in
                Ok (Next (rest, true, Some (mkRT [] None (T (lookup0 (B "TARGET") parsed)) weight), forest))
              else if has_prefix (B "NODE") line then
                if negb intree then Ok (Done (tree, forest, EOther, rest))
                else
                  match tree with
                  | None => Panic
                  | Some t =>
                      let* (h, r) := AddNode (rtHeap t) (rtRoot t) (T (lookup0 (B "NODE") parsed))
                                       (T (lookup0 (B "PRED") parsed)) (node_splitter parsed) in
                      Ok (Next (rest, intree, Some (mkRT h r (rtTarget t) (rtWeight t)), forest))
                  end
              else Ok (Next (rest, intree, tree, forest))
          end
    end.
  Definition ReadTree (input : bytes) : res rt_result :=
    loop (S (length input)) read_step (input, false, None, None).

  (** forestreader.go:32-69 ReadForest.  Result: the forest, the error and the rest of
      the input. *)
  Definition rf_state : Type := bytes * option rforest.
  Definition rf_result : Type := option rforest * goerr * bytes.
  Definition add_tree (f : rforest) (t : rtree) : rforest :=
    mkRF (rfTarget f) (rfIntercept f) (rfTrees f ++ [t]).
  Definition forest_step (st : rf_state) : res (flow rf_state rf_result) :=
    let '(input, forest) := st in
    let isnil := match forest with None => true | Some _ => false end in
    match input with
    | [] => Panic
    | c :: _ =>
        if Ascii.eqb c "F" && negb isnil then Ok (Done (forest, ENone, input))
        else
          let* (t, f, e, rest) := ReadTree input in
          match forest, f with
          | Some _, Some _ => Ok (Done (forest, ENone, rest))
          | _, _ =>
              let forest := match forest with None => f | Some _ => forest end in
              let forest := match t with
                            | None => forest
                            | Some t => Some (add_tree (match forest with
                                                        | None => mkRF (rtTarget t) f0 []
                                                        | Some f => f
                                                        end) t)
                            end in
              match e with
              | EEof => Ok (Done (forest, ENone, rest))
              | EOther => Ok (Done (forest, ENone, rest))
              | ENone => Ok (Next (rest, forest))
              end
          end
    end.
  Definition ReadForest (input : bytes) : res rf_result :=
    match input with
    | [] => Ok (None, EEof, input)
    | c :: _ =>
        if negb (Ascii.eqb c "F") && negb (Ascii.eqb c "T") then Ok (None, EOther, input)
        else loop (S (length input)) forest_step (input, None)
    end.
End Read.
