(** Other file formats: libsvm.go (writing), arff.go, utils/toafm/main.go, and what
    utils/nfold/main.go does to write libsvm files.  Reading libsvm is in ModelMatrix.v. *)
From Verif Require Import Go F64 ModelFeature ModelTargets2 ModelText ModelMatrix.
Local Open Scope string_scope.
Local Open Scope nat_scope.
Local Open Scope list_scope.

(** ** encoding/csv *)

(** csv.Writer, fieldNeedsQuotes: the empty field needs none, [\.] does, and so does a field
    with the comma, a quote or a line end in it, or with a leading space. *)
Definition needs_quotes (comma : ascii) (f : bytes) : bool :=
  match f with
  | [] => false
  | c :: _ => bytes_eqb f (B "\.") || is_space c
              || existsb (fun c => Ascii.eqb c comma || Ascii.eqb c quote || Ascii.eqb c cr || Ascii.eqb c nl) f
  end.
(** csv.Writer.Write: a quoted field, quotes doubled *)
Definition csv_quoted (f : bytes) : bytes :=
  quote :: flat_map (fun c => if Ascii.eqb c quote then [quote; quote] else [c]) f ++ [quote].
Definition csv_field (comma : ascii) (f : bytes) : bytes := if needs_quotes comma f then csv_quoted f else f.
(** csv.Writer.Write; errors of the underlying writer are not modelled *)
Definition csv_write (comma : ascii) (fs : list bytes) : bytes := join [comma] (map (csv_field comma) fs) ++ [nl].

(** csv.Reader: a carriage return before a newline or the end of the input is dropped *)
Fixpoint unix (s : bytes) : bytes :=
  match s with
  | [] => []
  | c :: s' =>
      match s' with
      | [] => if Ascii.eqb c cr then [] else [c]
      | d :: _ => if Ascii.eqb c cr && Ascii.eqb d nl then unix s' else c :: unix s'
      end
  end.
(** csv.Reader.readRecord, as an automaton over the bytes: at the start of a field, in a plain
    one, in a quoted one, after a quote in a quoted one.  [None]: a parse error. *)
Inductive cstate := CStart | CPlain | CQuoted | CQuote.
Fixpoint csv_scan (comma : ascii) (s : bytes) (st : cstate) (cur : bytes) (acc : list bytes) : option (list bytes * bytes) :=
  match s with
  | [] => match st with CQuoted => None | _ => Some (acc ++ [cur], []) end
  | c :: s' =>
      match st with
      | CQuoted => if Ascii.eqb c quote then csv_scan comma s' CQuote cur acc else csv_scan comma s' CQuoted (cur ++ [c]) acc
      | _ =>
          if Ascii.eqb c comma then csv_scan comma s' CStart [] (acc ++ [cur])
          else if Ascii.eqb c nl then Some (acc ++ [cur], s')
          else match st with
               | CStart => if Ascii.eqb c quote then csv_scan comma s' CQuoted [] acc else csv_scan comma s' CPlain [c] acc
               | CPlain => if Ascii.eqb c quote then None else csv_scan comma s' CPlain (cur ++ [c]) acc
               | _ => if Ascii.eqb c quote then csv_scan comma s' CQuoted (cur ++ [quote]) acc else None
               end
      end
  end.
(** The rest after a line *)
Fixpoint after_line (s : bytes) : bytes :=
  match s with [] => [] | c :: s' => if Ascii.eqb c nl then s' else after_line s' end.

Section Export.
  Variable ParseFloat : string -> option f64.
  (** the verb v of fmt.Sprintf for an int, and the verbs v and g for a float64 *)
  Variable itoa : nat -> string.
  Variable fmtF : f64 -> string.

  (** ** arff.go *)

  (** arff.go:76-119 WriteArffCases *)
  Definition arff_type (f : feature) : string :=
    match f with
    | FNum _ => "NUMERIC"
    | FCat f => ("{" ++ T (join (B ",") (map B (cmBack (cMap f)))) ++ "}")%string
    end.
  Definition arff_cell (i : nat) (f : feature) : res string :=
    let* m := fIsMissing f i in
    if m then Ok "?" else fGetStr fmtF f i.
  Definition arff_row (data : list feature) (i : nat) : res (list string) :=
    foreach data (fun f entries => let* v := arff_cell i f in Ok (entries ++ [v])) [].
  Definition arff_head (relation : string) (data : list feature) : bytes :=
    B "@RELATION " ++ B relation ++ [nl; nl]
    ++ flat_map (fun f => B "@ATTRIBUTE " ++ B (fName f) ++ B " " ++ B (arff_type f) ++ [nl]) data
    ++ [nl] ++ B "@DATA" ++ [nl].
  Definition WriteArffCases (fm : fmatrix) (cases : list nat) (relation : string) : res bytes :=
    foreach cases (fun i out =>
      let* entries := arff_row (fmData fm) i in
      Ok (out ++ csv_write "," (map B entries))) (arff_head relation (fmData fm)).

  (** arff.go:24-61: the attributes; [None] when the input ends before the data *)
  Fixpoint arff_attributes (fuel : nat) (s : bytes) (data : list feature) (lookup : list (string * nat))
    : res (option (list feature * list (string * nat) * bytes)) :=
    match fuel with
    | 0 => Spin
    | S fuel =>
        match read_line s with
        | None => Ok None
        | Some (line, rest) =>
            let norm := B (ToLower (T line)) in
            if has_prefix (B "@data") norm then Ok (Some (data, lookup, rest))
            else if has_prefix (B "@attribute") norm then
              let vals := map T (fields line) in
              let* v2 := get vals 2 in
              let* v1 := get vals 1 in
              let f := if (ToLower v2 =? "numeric")%string || (ToLower v2 =? "real")%string then newNum v1 else newCat v1 in
              arff_attributes fuel rest (data ++ [f]) ((v1, length data) :: lookup)
            else arff_attributes fuel rest data lookup
        end
    end.
  (** featurematrix.go:316-341 LoadCases on a reader with comma [,] and comment [%], without
      row labels; [n] is the number of fields of the first record *)
  Fixpoint arff_cases (fuel : nat) (n count : nat) (s : bytes) (data : list feature) (labels : list string)
    : res (list feature * list string) :=
    match fuel with
    | 0 => Spin
    | S fuel =>
        match s with
        | [] => Ok (data, labels)
        | c :: s' =>
            if Ascii.eqb c nl then arff_cases fuel n count s' data labels
            else if Ascii.eqb c "%" then arff_cases fuel n count (after_line s) data labels
            else match csv_scan "," s CStart [] [] with
                 | None => Ok (data, labels)
                 | Some (fs, rest) =>
                     if (n =? 0) || (length fs =? n) then
                       let* data := append_case ParseFloat (map T fs) data in
                       arff_cases fuel (length fs) (S count) rest data (labels ++ [itoa count])
                     else Ok (data, labels)
                 end
        end
    end.
  (** arff.go:15-73 ParseARFF; [None] is the nil matrix *)
  Definition ParseARFF (input : bytes) : res (option fmatrix) :=
    let* h := arff_attributes (S (length input)) input [] [] in
    match h with
    | None => Ok None
    | Some (data, lookup, rest) =>
        let* (data, labels) := arff_cases (S (length rest)) 0 0 (unix rest) data [] in
        Ok (Some (mkFM data lookup labels))
    end.

  (** ** libsvm.go *)
  Definition fImputeMissing (f : feature) : res feature :=
    match f with
    | FNum f => let* g := nImputeMissing f in Ok (FNum g)
    | FCat f => let* g := cImputeMissing f in Ok (FCat g)
    end.
  (** featurematrix.go:306-310 ImputeMissing *)
  Definition fmImputeMissing (fm : fmatrix) : res fmatrix :=
    let* data := foreach (fmData fm) (fun f data => let* g := fImputeMissing f in Ok (data ++ [g])) [] in
    Ok (mkFM data (fmMap fm) (fmLabels fm)).
  Definition fCopy (f : feature) : feature :=
    match f with FNum f => FNum (nCopy f) | FCat f => FCat (cCopy f) end.

  (** libsvm.go:107-116, 160-169: the matrix without its target *)
  Definition without (targeti : nat) (fm : fmatrix) : fmatrix :=
    let data := firstn targeti (fmData fm) ++ skipn (S targeti) (fmData fm) in
    mkFM data (rev (combine (map fName data) (seq 0 (length data)))) (fmLabels fm).

  (** libsvm.go:133-138, 188-193: the entries of case [i]; [f.(NumFeature)] of a categorical
      feature panics *)
  Definition svm_entries (i : nat) (data : list feature) (first : string) : res (list string) :=
    foreach (combine (seq 0 (length data)) data) (fun '((j, f) : nat * feature) entries =>
      match f with
      | FCat _ => Panic
      | FNum g => let* v := get (nData g) i in
                  Ok (if feqb v f0 then entries else entries ++ [(itoa (j + 1) ++ ":" ++ fmtF v)%string])
      end) [first].

  (** libsvm.go:126-131: the target of case [i] as WriteLibSvm writes it *)
  Definition svm_target (target : feature) (i : nat) : res string :=
    match target with
    | FNum _ => fGetStr fmtF target i
    | FCat f => let* c := cGeti f i in Ok (itoa c)
    end.
  (** libsvm.go:181-186: as WriteLibSvmCases writes it *)
  Definition svm_target_raw (target : feature) (i : nat) : res string :=
    match target with
    | FNum f => let* x := nGet f i in Ok (fmtF x)
    | FCat f => let* c := cGeti f i in Ok (itoa c)
    end.

  (** libsvm.go:120-148, 176-205: the lines of the given cases *)
  Definition svm_write (first : nat -> res string) (cases : list nat) (data : list feature) : res bytes :=
    foreach cases (fun i out =>
      let* t := first i in
      let* entries := svm_entries i data t in
      Ok (out ++ csv_write " " (map B entries))) [].

  (** libsvm.go:99-148 WriteLibSvm.  [None] is the error that the target is unknown.  The
      caller's features are copied; EncodeToNum gives features of its own. *)
  Definition WriteLibSvm (fm : fmatrix) (targetn : string) : res (option bytes) :=
    match assoc targetn (fmMap fm) with
    | None => Ok None
    | Some targeti =>
        let* target := get (fmData fm) targeti in
        let others := without targeti fm in
        let* imputed := fmImputeMissing (mkFM (map fCopy (fmData others)) (fmMap others) (fmLabels others)) in
        let* encoded := fmEncodeToNum imputed in
        let* out := svm_write (svm_target target) (seq 0 (fLength target)) (fmData encoded) in
        Ok (Some out)
    end.

  (** libsvm.go:150-205 WriteLibSvmCases: also the matrix as the caller finds it afterwards.
      Here the features do not share their flags; see [impute_shared]. *)
  Definition WriteLibSvmCases (fm : fmatrix) (cases : list nat) (targetn : string) : res (option (fmatrix * bytes)) :=
    match assoc targetn (fmMap fm) with
    | None => Ok None
    | Some targeti =>
        let* target := get (fmData fm) targeti in
        let others := without targeti fm in
        let encode := existsb (fun f => 0 <? fNCats f) (fmData others) in
        let* imputed := fmImputeMissing others in
        let* encoded := if encode then fmEncodeToNum imputed else Ok imputed in
        let* out := svm_write (svm_target_raw target) cases (fmData encoded) in
        let data' := firstn targeti (fmData imputed) ++ [target] ++ skipn targeti (fmData imputed) in
        Ok (Some (mkFM data' (fmMap fm) (fmLabels fm), out))
    end.

  (** ** utils/nfold/main.go:221-232, 257-261: encode, then impute *)

  (** densecatfeature.go:28-57: the columns that EncodeToNum makes of a feature keep the
      Missing slice of the feature.  A heap of such slices; a column is its values and the
      address of its slice. *)
  Record shared := mkShared { shMasks : list (list bool); shCols : list (list f64 * nat) }.
  (** densenumfeature.go:664-683 ImputeMissing on such a column *)
  Definition impute_shared (k : nat) (s : shared) : res shared :=
    let* (d, a) := get (shCols s) k in
    let* mask := get (shMasks s) a in
    let* g := nImputeMissing (mkNum d mask "" true) in
    let* cols := set (shCols s) k (nData g, a) in
    let* masks := set (shMasks s) a (nMissing g) in
    Ok (mkShared masks cols).
  (** featurematrix.go:306-310 on them *)
  Definition impute_all_shared (s : shared) : res shared :=
    for_up (length (shCols s)) 0 impute_shared s.
  (** The columns of one categorical feature of the original matrix *)
  Definition share_cat (f : catF) : res shared :=
    let* fns := cEncodeToNum f in
    Ok (mkShared [cMissing f] (map (fun g => (nData g, 0)) fns)).
  (** The feature after its columns were imputed: its Missing slice is theirs *)
  Definition after_shared (f : catF) (s : shared) : res catF :=
    let* ms := get (shMasks s) 0 in
    Ok (mkCat (cMap f) (cData f) ms (cName f) (cRandom f) (cHas f)).

  (** utils/nfold/main.go:227-230, 259-260: encode everything, then write; the error is ignored *)
  Definition nfold_libsvm (fm : fmatrix) (cases : list nat) (targetn : string) : res (option bytes) :=
    let encode := existsb (fun f => 0 <? fNCats f) (fmData fm) in
    let* encoded := if encode then fmEncodeToNum fm else Ok fm in
    let* w := WriteLibSvmCases encoded cases targetn in
    Ok (option_map snd w).

  (** ** utils/toafm/main.go *)

  (** utils/toafm/main.go:38-66: the features on the list, without the targets *)
  Definition toafm_blacklist (anon libsvm : string) (lookup : list (string * nat)) (ids : list string) (n : nat) : res (list bool) :=
    foreach ids (fun id (bl : list bool) =>
      if (id =? anon)%string || (id =? libsvm)%string then Ok bl
      else match assoc id lookup with
           | None => Ok bl
           | Some i => let* b := get bl i in (if b then Ok bl else set bl i true)
           end) (repeat false n).
  (** utils/toafm/main.go:68-79 *)
  Definition toafm_keep (bl : list bool) (data : list feature) : list feature * list (string * nat) :=
    fold_left (fun (a : list feature * list (string * nat)) (bf : bool * feature) =>
      if fst bf then a else (fst a ++ [snd bf], (fName (snd bf), length (fst a)) :: snd a)) (combine bl data) ([], []).
  (** utils/toafm/main.go:86-101 *)
  Definition fRename (f : feature) (name : string) : feature :=
    match f with
    | FNum f => FNum (mkNum (nData f) (nMissing f) name (nHas f))
    | FCat f => FCat (mkCat (cMap f) (cData f) (cMissing f) name (cRandom f) (cHas f))
    end.
  Definition annotate (f : feature) : feature :=
    let name := fName f in
    match f with
    | FNum _ => if has_prefix (B "N:") (B name) then f else fRename f ("N:" ++ name)
    | FCat _ => if has_prefix (B "C:") (B name) || has_prefix (B "B:") (B name) then f else fRename f ("C:" ++ name)
    end.
  (** utils/toafm/main.go:32-171 after the data was loaded.  [None]: log.Fatal because the
      libsvm target is unknown. *)
  Definition toafm (anon libsvm : string) (ids : list string) (fm : fmatrix) : res (option bytes) :=
    let* bl := toafm_blacklist anon libsvm (fmMap fm) ids (length (fmData fm)) in
    let '(nd, nm) := toafm_keep bl (fmData fm) in
    let fm := mkFM nd nm (fmLabels fm) in
    let* fm := if (anon =? "")%string then Ok fm else StripStrings itoa anon fm in
    let fm := mkFM (map annotate (fmData fm)) (fmMap fm) (fmLabels fm) in
    let* f := get (fmData fm) 0 in
    if (libsvm =? "")%string then
      let* out := WriteCases fmtF fm (seq 0 (fLength f)) in Ok (Some out)
    else WriteLibSvm fm libsvm.
End Export.
