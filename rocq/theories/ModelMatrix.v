(** Feature matrices as a whole: featurematrix.go (parsing, writing, encodings,
    contrasts, StripStrings), densecatfeature.go EncodeToNum and OneHot, and libsvm.go
    ParseLibSVM. *)
From Verif Require Import Go F64 ModelFeature ModelSample ModelText.
Local Open Scope string_scope.
Local Open Scope nat_scope.
Local Open Scope list_scope.

Definition cr : ascii := ascii_of_nat 13.

(** ** encoding/csv with a tab as comma *)

(** A carriage return before the end of a line belongs to the line end. *)
Definition drop_cr (l : bytes) : bytes :=
  match rev l with c :: l' => if Ascii.eqb c cr then rev l' else l | [] => l end.
(** The lines of a file; csv.Reader skips empty lines. *)
Definition csv_lines (input : bytes) : list bytes :=
  filter (fun l => negb (length l =? 0)) (map drop_cr (split nl input)).
(** The fields of a line.  [None] is an error: a quote in a field that does not start with
    one.  Quoted fields (which may span lines) are not modelled; they are errors here. *)
Definition csv_record (line : bytes) : option (list bytes) :=
  let fs := split tab line in
  if existsb (fun f => negb (count_byte quote f =? 0)) fs then None else Some fs.
(** csv.Reader.Read: the remaining lines and the number of fields of the first record
    (FieldsPerRecord = 0); every other record needs as many. *)
Inductive csvres := CEof | CErr | CRec (fields : list bytes) (rest : list bytes).
Definition csv_read (n : nat) (ls : list bytes) : csvres :=
  match ls with
  | [] => CEof
  | l :: ls' =>
      match csv_record l with
      | None => CErr
      | Some fs => if (n =? 0) || (length fs =? n) then CRec fs ls' else CErr
      end
  end.

(** ** Parsing *)

(** [s[:2]] *)
Definition prefix2 (s : string) : res string := if String.length s <? 2 then Panic else Ok (substring 0 2 s).

Definition newNum (name : string) : feature := FNum (mkNum [] [] name false).
Definition newCat (name : string) : feature := FCat (mkCat emptyCM [] [] name false false).

Section Parse.
  Variable ParseFloat : string -> option f64.
  (** the verb v of fmt.Sprintf for an int *)
  Variable itoa : nat -> string.

  (** Feature.Append *)
  Definition fAppend (f : feature) (v : string) : feature :=
    match f with FNum f => FNum (nAppend ParseFloat f v) | FCat f => FCat (cAppend f v) end.

  (** featurematrix.go:447-481 ParseFeature *)
  Definition ParseFeature (record : list string) : res feature :=
    let* name := get record 0 in
    let* p := prefix2 name in
    Ok (fold_left fAppend (tl record) (if (p =? "N:")%string then newNum name else newCat name)).

  (** featurematrix.go:334-336: the values of one case *)
  Definition append_case (record : list string) (data : list feature) : res (list feature) :=
    foreach (combine (seq 0 (length record)) record) (fun '((i, v) : nat * string) data =>
      let* f := get data i in set data i (fAppend f v)) data.

  (** featurematrix.go:316-341 LoadCases on a reader with lines [ls] left, whose records
      have [n] fields.  Result: features and case labels. *)
  Fixpoint LoadCases (n : nat) (rowlabels : bool) (count : nat) (ls : list bytes) (data : list feature) (labels : list string)
    : res (list feature * list string) :=
    match csv_read n ls with
    | CEof | CErr => Ok (data, labels)
    | CRec fs _ =>
        let record := map T fs in
        let* (label, record) := if rowlabels then let* l := get record 0 in Ok (l, tl record) else Ok (itoa count, record) in
        let* data := append_case record data in
        match ls with
        | [] => Ok (data, labels)
        | _ :: ls' => LoadCases (if n =? 0 then length fs else n) rowlabels (S count) ls' data (labels ++ [label])
        end
    end.

  (** featurematrix.go:393-407: features in rows *)
  Fixpoint parse_rows (n : nat) (ls : list bytes) (data : list feature) (lookup : list (string * nat))
    : res (list feature * list (string * nat)) :=
    match csv_read n ls with
    | CEof | CErr => Ok (data, lookup)
    | CRec fs _ =>
        let record := map T fs in
        let* f := ParseFeature record in
        let* name := get record 0 in
        match ls with
        | [] => Ok (data, lookup)
        | _ :: ls' => parse_rows n ls' (data ++ [f]) ((name, length data) :: lookup)
        end
    end.

  (** featurematrix.go:347-408 ParseAFM.  [Panic]: no header line ([headers[1:]] of a nil
      slice) or no column beside the first ([headers[0]]).  A header line with a quote is
      not modelled (also [Panic]). *)
  Definition ParseAFM (input : bytes) : res fmatrix :=
    match csv_read 0 (csv_lines input) with
    | CEof | CErr => Panic
    | CRec fs ls =>
        let headers := tl (map T fs) in
        let n := length fs in
        let* h0 := get headers 0 in
        let* typed := if 1 <? String.length h0
                      then let* sniff := prefix2 h0 in
                           Ok ((sniff =? "N:")%string || (sniff =? "C:")%string || (sniff =? "B:")%string)
                      else Ok false in
        if typed then
          let* (data, lookup) := foreach (combine (seq 0 (length headers)) headers)
            (fun '((i, label) : nat * string) '((data, lookup) : list feature * list (string * nat)) =>
              let* p := prefix2 label in
              Ok (data ++ [if (p =? "N:")%string then newNum label else newCat label], (label, i) :: lookup)) ([], []) in
          let* (data, labels) := LoadCases n true 0 ls data [] in
          Ok (mkFM data lookup labels)
        else
          let* (data, lookup) := parse_rows n ls [] [] in
          Ok (mkFM data lookup headers)
    end.

  (** ** Writing *)
  Variable fmtF : f64 -> string.
  (** densenumfeature.go:88-93, densecatfeature.go:137-142 GetStr *)
  Definition fGetStr (f : feature) (i : nat) : res string :=
    match f with
    | FNum f => let* m := get (nMissing f) i in
                if m then Ok "NA" else let* x := get (nData f) i in Ok (fmtF x)
    | FCat f => cGetStr f i
    end.
  (** fmt.Fprintln of the fields joined with tabs *)
  Definition tsv_line (vals : list string) : bytes := join [tab] (map B vals) ++ [nl].
  (** featurematrix.go:106-135 WriteCases; write errors are not modelled *)
  Definition WriteCases (fm : fmatrix) (cases : list nat) : res bytes :=
    let* labels := foreach cases (fun c vals => let* l := get (fmLabels fm) c in Ok (vals ++ [l])) ["."] in
    foreach (fmData fm) (fun f out =>
      let* vals := foreach cases (fun c vals => let* v := fGetStr f c in Ok (vals ++ [v])) [fName f] in
      Ok (out ++ tsv_line vals)) (tsv_line labels).

  (** ** Encodings *)
  (** densecatfeature.go:28-57 EncodeToNum.  The columns share the Missing slice of [f]
      (see C80); here it is copied. *)
  Definition cEncodeToNum (f : catF) : res (list numF) :=
    let l := cLength f in
    if NCats (cMap f) <=? 2 then
      let* d := foreach (combine (seq 0 (length (cData f))) (cData f)) (fun '((i, v) : nat * nat) d =>
                  set d i (f_of_nat v)) (repeat f0 l) in
      Ok [mkNum d (cMissing f) (cName f) (cHas f)]
    else
      foreach (combine (seq 0 (length (cmBack (cMap f)))) (cmBack (cMap f))) (fun '((j, sv) : nat * string) fs =>
        let* d := foreach (combine (seq 0 (length (cData f))) (cData f)) (fun '((i, v) : nat * nat) d =>
                    if j =? v then set d i f1 else Ok d) (repeat f0 l) in
        Ok (fs ++ [mkNum d (cMissing f) (cName f ++ "==" ++ sv) (cHas f)])) [].
  (** densecatfeature.go:59-82 OneHot *)
  Definition cOneHot (f : catF) : res (list catF) :=
    let l := cLength f in
    if 2 <? NCats (cMap f) then
      foreach (combine (seq 0 (length (cmBack (cMap f)))) (cmBack (cMap f))) (fun '((j, sv) : nat * string) fs =>
        let* d := foreach (combine (seq 0 (length (cData f))) (cData f)) (fun '((i, v) : nat * nat) d =>
                    if j =? v then set d i 1 else Ok d) (repeat 0 l) in
        Ok (fs ++ [mkCat (mkCM [("false", 0); ("true", 1)] ["false"; "true"]) d (cMissing f)
                     (cName f ++ "==" ++ sv) (cRandom f) (cHas f)])) []
    else Ok [].

  (** The number of keys of a map given as the list of its assignments *)
  Definition map_len {V} (m : list (string * V)) : nat := length (nodup string_dec (map fst m)).
  (** featurematrix.go:71-72, 76-77: one column more; note [len(out.Map)] *)
  Definition add_column (f : feature) (out : fmatrix) : fmatrix :=
    mkFM (fmData out ++ [f]) ((fName f, map_len (fmMap out)) :: fmMap out) (fmLabels out).
  (** featurematrix.go:63-82 FeatureMatrix.EncodeToNum, 84-103 OneHot *)
  Definition fmEncodeToNum (fm : fmatrix) : res fmatrix :=
    foreach (fmData fm) (fun f out =>
      match f with
      | FNum _ => Ok (add_column f out)
      | FCat c => let* fns := cEncodeToNum c in Ok (fold_left (fun out fn => add_column (FNum fn) out) fns out)
      end) (mkFM [] [] (fmLabels fm)).
  Definition fmOneHot (fm : fmatrix) : res fmatrix :=
    foreach (fmData fm) (fun f out =>
      match f with
      | FNum _ => Ok (add_column f out)
      | FCat c => let* fns := cOneHot c in Ok (fold_left (fun out fn => add_column (FCat fn) out) fns out)
      end) (mkFM [] [] (fmLabels fm)).

  (** ** Contrasts *)
  Definition fShuffledCopy (rnd : nat -> nat) (f : feature) : res feature :=
    match f with
    | FNum f => let* g := nShuffledCopy rnd f in Ok (FNum g)
    | FCat f => let* g := cShuffledCopy rnd f in Ok (FCat g)
    end.
  (** featurematrix.go:274-276, 296-298 *)
  Definition add_contrast (fake : feature) (fm : fmatrix) : fmatrix :=
    mkFM (fmData fm ++ [fake]) ((fName fake, length (fmData fm)) :: fmMap fm) (fmLabels fm).
  (** featurematrix.go:266-279 AddContrasts; [pick i] and [rnd i] are the draws of round [i] *)
  Definition AddContrasts (n : nat) (pick : nat -> nat) (rnd : nat -> nat -> nat) (fm : fmatrix) : res fmatrix :=
    let nreal := length (fmData fm) in
    for_up n 0 (fun i fm =>
      let* k := intn (pick i) nreal in
      let* orig := get (fmData fm) k in
      let* fake := fShuffledCopy (rnd i) orig in
      Ok (add_contrast fake fm)) fm.
  (** featurematrix.go:290-301 ContrastAll *)
  Definition ContrastAll (rnd : nat -> nat -> nat) (fm : fmatrix) : res fmatrix :=
    for_up (length (fmData fm)) 0 (fun i fm =>
      let* orig := get (fmData fm) i in
      let* fake := fShuffledCopy (rnd i) orig in
      Ok (add_contrast fake fm)) fm.

  (** ** StripStrings *)
  (** The first feature of a name *)
  Fixpoint find_name (i : nat) (name : string) (fs : list feature) : option nat :=
    match fs with
    | [] => None
    | f :: fs' => if (fName f =? name)%string then Some i else find_name (S i) name fs'
    end.
  (** featurematrix.go:50-56: the categories get numbers as names; note that the table
      gets [i], the index of the feature *)
  Definition strip_cat (i : nat) (f : catF) : catF :=
    let back := map itoa (seq 0 (length (cmBack (cMap f)))) in
    mkCat (mkCM (rev (map (fun v => (v, i)) back)) back) (cData f) (cMissing f) ("C:" ++ itoa i) (cRandom f) (cHas f).
  Definition strip_one (i : nat) (f : feature) : feature :=
    match f with
    | FNum f => FNum (mkNum (nData f) (nMissing f) ("N:" ++ itoa i) (nHas f))
    | FCat f => FCat (strip_cat i f)
    end.
  (** featurematrix.go:22-61 StripStrings *)
  Definition StripStrings (target : string) (fm : fmatrix) : res fmatrix :=
    let labels := map itoa (seq 0 (length (fmLabels fm))) in
    let* data := match find_name 0 target (fmData fm) with
                 | None => Ok (fmData fm)
                 | Some k => let* f := get (fmData fm) k in
                             let* g := get (fmData fm) 0 in
                             let* d := set (fmData fm) k g in set d 0 f
                 end in
    let data' := map (fun '((i, f) : nat * feature) => strip_one i f) (combine (seq 0 (length data)) data) in
    Ok (mkFM data' (rev (combine (map fName data') (seq 0 (length data')))) labels).

  (** ** libsvm *)
  (** strings.Fields (ASCII white space) *)
  Fixpoint fields_from (s : bytes) (w : bytes) : list bytes :=
    match s with
    | [] => if length w =? 0 then [] else [w]
    | c :: s' => if is_space c then (if length w =? 0 then fields_from s' [] else w :: fields_from s' [])
                 else fields_from s' (w ++ [c])
    end.
  Definition fields (s : bytes) : list bytes := fields_from s [].
  (** strconv.Atoi; [None] is an error, and the value is then 0 *)
  Variable Atoi : bytes -> option Z.
  Definition fPutStr (f : feature) (i : nat) (v : string) : res feature :=
    match f with
    | FNum f => let* g := nPutStr ParseFloat f i v in Ok (FNum g)
    | FCat f => let* g := cPutStr f i v in Ok (FCat g)
    end.
  (** libsvm.go:72-82: columns up to [xi], each of [ncases] zeros *)
  Definition grow_to (xi ncases : nat) (st : list feature * list (string * nat)) : list feature * list (string * nat) :=
    let '(data, lookup) := st in
    let new := seq (length data) (S xi - length data) in
    (data ++ map (fun j => FNum (mkNum (repeat f0 ncases) (repeat false ncases) (itoa j) false)) new,
     rev (map (fun j => (itoa j, j)) new) ++ lookup).
  (** libsvm.go:66-85: one entry of a line *)
  Definition svm_entry (i ncases : nat) (v : bytes) (st : list feature * list (string * nat)) : res (list feature * list (string * nat)) :=
    let parts := split ":" v in
    let* p0 := get parts 0 in
    let xi := match Atoi p0 with Some z => z | None => 0%Z end in
    let '(data, lookup) := if (xi <? 0)%Z then st else grow_to (Z.to_nat xi) ncases st in
    let* p1 := get parts 1 in
    let* f := getZ data xi in
    let* g := fPutStr f i (T p1) in
    let* data := set data (Z.to_nat xi) g in
    Ok (data, lookup).
  (** libsvm.go:33-85: one line; [i] is its number *)
  Definition svm_line (i : nat) (line : bytes) (st : list feature * list (string * nat)) : res (list feature * list (string * nat)) :=
    let vals := fields line in
    let* v0 := get vals 0 in
    let '(data, lookup) := st in
    let '(data, lookup) :=
      if i =? 0 then (data ++ [if count_byte "." v0 =? 0 then newCat "0" else newNum "0"], ("0", 0) :: lookup)
      else (data, lookup) in
    let* f := get data 0 in
    let* data := set data 0 (fAppend f (T v0)) in
    let* data := match data with
                 | [] => Panic
                 | f0' :: fs => Ok (f0' :: map (fun f => fAppend f "0") fs)
                 end in
    foreach (tl vals) (svm_entry i (S i)) (data, lookup).
  (** libsvm.go:13-97 ParseLibSVM.  A last line without newline is dropped: ReadString
      returns it with io.EOF. *)
  Definition ParseLibSVM (input : bytes) : res fmatrix :=
    let lines := removelast (split nl input) in
    let* (data, lookup) := foreach (combine (seq 0 (length lines)) lines)
                             (fun '((i, l) : nat * bytes) st => svm_line i l st) ([], []) in
    Ok (mkFM data lookup (map itoa (seq 0 (length lines)))).
End Parse.
