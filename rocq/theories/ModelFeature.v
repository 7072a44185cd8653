(** Model of the data structures of a feature matrix: CatMap, DenseNumFeature,
    DenseCatFeature, Splitter and their elementary operations.

    Go strings are byte strings, Coq [string]s.  A Go map is an association
    list in which the first binding of a key counts; only lookups and updates
    are used here, so the order of the list is not observable. *)
From Verif Require Import Go F64.
Local Open Scope string_scope.
Local Open Scope nat_scope.
Local Open Scope list_scope.

(** [m[k]] with the comma-ok form: [None] if the key is absent. *)
Fixpoint assoc {A} (k : string) (m : list (string * A)) : option A :=
  match m with
  | [] => None
  | (k', v) :: m' => if String.eqb k k' then Some v else assoc k m'
  end.

(** ** catmap.go *)

(** catmap.go:13-16 CatMap *)
Record catmap := mkCM { cmMap : list (string * nat); cmBack : list string }.

(** catmap.go:21-30 CatToNum *)
Definition CatToNum (cm : catmap) (value : string) : catmap * nat :=
  match assoc value (cmMap cm) with
  | Some n => (cm, n)
  | None =>
      let n := length (cmBack cm) in
      (mkCM ((value, n) :: cmMap cm) (cmBack cm ++ [value]), n)
  end.

(** catmap.go:33-35 NumToCat *)
Definition NumToCat (cm : catmap) (i : nat) : res string := get (cmBack cm) i.

(** catmap.go:38-45 NCats *)
Definition NCats (cm : catmap) : nat := length (cmBack cm).

Definition emptyCM : catmap := mkCM [] [].

(** ** Missing tokens *)

(** strings.ToLower on ASCII.  Bytes outside A-Z are unchanged.  No non-ASCII
    character is lowered to one of the letters of the tokens compared with
    below, so this is enough for those comparisons. *)
Definition lower_ascii (c : ascii) : ascii :=
  let n := nat_of_ascii c in
  if (65 <=? n) && (n <=? 90) then ascii_of_nat (n + 32) else c.
Fixpoint ToLower (s : string) : string :=
  match s with
  | EmptyString => EmptyString
  | String c s' => String (lower_ascii c) (ToLower s')
  end.

(** densecatfeature.go:87-88 and 146-147: the test for a missing token. *)
Definition missing_token (v : string) : bool :=
  let norm := ToLower v in
  String.eqb norm "" || String.eqb norm "?" || String.eqb norm "nan"
  || String.eqb norm "na" || String.eqb norm "null".

(** ** DenseCatFeature *)

(** densecatfeature.go:17-24.  Category numbers are [nat] (the code never
    stores negative ones). *)
Record catF := mkCat {
  cMap : catmap;
  cData : list nat;
  cMissing : list bool;
  cName : string;
  cRandom : bool;
  cHas : bool
}.

(** densecatfeature.go:86-97 Append *)
Definition cAppend (f : catF) (v : string) : catF :=
  if missing_token v then
    mkCat (cMap f) (cData f ++ [0]) (cMissing f ++ [true]) (cName f) (cRandom f) true
  else
    let (cm, n) := CatToNum (cMap f) v in
    mkCat cm (cData f ++ [n]) (cMissing f ++ [false]) (cName f) (cRandom f) (cHas f).

(** densecatfeature.go:100-102 Length *)
Definition cLength (f : catF) : nat := length (cMissing f).

(** densecatfeature.go:110-112 IsMissing *)
Definition cIsMissing (f : catF) (i : nat) : res bool := get (cMissing f) i.

(** densecatfeature.go:120-123 PutMissing *)
Definition cPutMissing (f : catF) (i : nat) : res catF :=
  let* ms := set (cMissing f) i true in
  Ok (mkCat (cMap f) (cData f) ms (cName f) (cRandom f) true).

(** densecatfeature.go:126-128 Geti *)
Definition cGeti (f : catF) (i : nat) : res nat := get (cData f) i.

(** densecatfeature.go:131-134 Puti *)
Definition cPuti (f : catF) (i v : nat) : res catF :=
  let* d := set (cData f) i v in
  let* ms := set (cMissing f) i false in
  Ok (mkCat (cMap f) d ms (cName f) (cRandom f) (cHas f)).

(** densecatfeature.go:137-142 GetStr *)
Definition cGetStr (f : catF) (i : nat) : res string :=
  let* m := get (cMissing f) i in
  if m then Ok "NA"
  else let* c := get (cData f) i in get (cmBack (cMap f)) c.

(** densecatfeature.go:145-154 PutStr.  Note that the code does not return
    after recognising a missing token. *)
Definition cPutStr (f : catF) (i : nat) (v : string) : res catF :=
  let* f1 := (if missing_token v then cPutMissing f i else Ok f) in
  let (cm, vi) := CatToNum (cMap f1) v in
  let* d := set (cData f1) i vi in
  let* ms := set (cMissing f1) i false in
  Ok (mkCat cm d ms (cName f1) (cRandom f1) (cHas f1)).

(** densecatfeature.go:1194-1212 Copy, as a value.  (That the copy shares the Go
    map with the original is modelled separately, in ModelAlias.v.)
    [copy(dst, src)] into a slice of length [len(Missing)]. *)
Definition copyinto {A} (dst src : list A) : list A :=
  firstn (length dst) src ++ skipn (length src) dst.
Definition cCopy (f : catF) : catF :=
  let n := length (cMissing f) in
  mkCat (cMap f) (copyinto (repeat 0 n) (cData f)) (copyinto (repeat false n) (cMissing f))
        (cName f) (cRandom f) (cHas f).

(** densecatfeature.go:1215-1219 CopyInTo: the destination after the call. *)
Definition cCopyInTo (f dst : catF) : catF :=
  mkCat (cMap dst) (copyinto (cData dst) (cData f)) (copyinto (cMissing dst) (cMissing f))
        (cName dst) (cRandom dst) (cHas dst).

(** densecatfeature.go:1116-1122, the counting part of Modei. *)
Definition mode_counts (f : catF) (cases : list nat) : res (list nat) :=
  foreach cases (fun i counts =>
    let* m := get (cMissing f) i in
    if m then Ok counts
    else
      let* c := get (cData f) i in
      let* n := get counts c in
      set counts c (n + 1)) (repeat 0 (NCats (cMap f))).

(** densecatfeature.go:1123-1129: [m, max] over [k, v := range counts]. *)
Fixpoint argmax_from (k : nat) (counts : list nat) (m max : nat) : nat :=
  match counts with
  | [] => m
  | v :: counts' =>
      if max <? v then argmax_from (S k) counts' k v
      else argmax_from (S k) counts' m max
  end.

(** densecatfeature.go:1115-1132 Modei *)
Definition cModei (f : catF) (cases : list nat) : res nat :=
  let* counts := mode_counts f cases in
  Ok (argmax_from 0 counts 0 0).

(** densecatfeature.go:1108-1112 Mode and 1137-1143 FindPredicted *)
Definition cMode (f : catF) (cases : list nat) : res string :=
  let* m := cModei f cases in get (cmBack (cMap f)) m.
Definition cFindPredicted (f : catF) (cases : list nat) : res string := cMode f cases.

(** densecatfeature.go:1222-1240 ImputeMissing.  The loop [range f.Missing]
    evaluates the slice header once but reads the elements as it goes; writing
    [Missing[i] = false] at the current index does not influence later reads. *)
Definition cImputeMissing (f : catF) : res catF :=
  let n := length (cMissing f) in
  let* mode := cModei f (seq 0 n) in
  let* (d, ms) :=
    for_up n 0 (fun i '((d, ms) : list nat * list bool) =>
      let* m := get ms i in
      if m then
        let* d' := set d i mode in
        let* ms' := set ms i false in Ok (d', ms')
      else Ok (d, ms)) (cData f, cMissing f) in
  Ok (mkCat (cMap f) d ms (cName f) (cRandom f) false).

(** densecatfeature.go:929-936 FilterMissing, [*filtered] given as [filtered]. *)
Definition cFilterMissing (f : catF) (cases filtered : list nat) : res (list nat) :=
  foreach cases (fun c acc =>
    let* m := get (cMissing f) c in
    Ok (if m then acc else acc ++ [c])) filtered.

(** densecatfeature.go:1081-1105 Span: the number of distinct categories, with
    the early exit once all categories are seen. *)
Fixpoint cSpan_loop (f : catF) (cases : list nat) (counter : list nat) (total : nat) : res nat :=
  match cases with
  | [] => Ok total
  | i :: cases' =>
      let* m := get (cMissing f) i in
      if m then cSpan_loop f cases' counter total
      else
        let* c := get (cData f) i in
        let* n := get counter c in
        if n =? 0 then
          let* counter' := set counter c 1 in
          if S total =? NCats (cMap f) then Ok (S total)
          else cSpan_loop f cases' counter' (S total)
        else cSpan_loop f cases' counter total
  end.
Definition cSpan (f : catF) (cases counter : list nat) : res nat :=
  cSpan_loop f cases (repeat 0 (length counter)) 0.

(** ** DenseNumFeature *)

(** densenumfeature.go:13-18 *)
Record numF := mkNum {
  nData : list f64;
  nMissing : list bool;
  nName : string;
  nHas : bool
}.

Section Parse.
  (** [strconv.ParseFloat(v, 64)]: [None] when it reports an error. *)
  Variable ParseFloat : string -> option f64.

  (** densenumfeature.go:22-32 Append *)
  Definition nAppend (f : numF) (v : string) : numF :=
    match ParseFloat v with
    | None => mkNum (nData f ++ [f0]) (nMissing f ++ [true]) (nName f) true
    | Some x => mkNum (nData f ++ [x]) (nMissing f ++ [false]) (nName f) (nHas f)
    end.

  (** densenumfeature.go:40-49 PutStr *)
  Definition nPutStr (f : numF) (i : nat) (v : string) : res numF :=
    match ParseFloat v with
    | None => let* ms := set (nMissing f) i true in Ok (mkNum (nData f) ms (nName f) true)
    | Some x =>
        let* d := set (nData f) i x in
        let* ms := set (nMissing f) i false in Ok (mkNum d ms (nName f) (nHas f))
    end.
End Parse.

(** densenumfeature.go:62-64 Length *)
Definition nLength (f : numF) : nat := length (nMissing f).

(** densenumfeature.go:67-69 IsMissing *)
Definition nIsMissing (f : numF) (i : nat) : res bool := get (nMissing f) i.

(** densenumfeature.go:77-80 PutMissing *)
Definition nPutMissing (f : numF) (i : nat) : res numF :=
  let* ms := set (nMissing f) i true in Ok (mkNum (nData f) ms (nName f) true).

(** densenumfeature.go:83-85 Get *)
Definition nGet (f : numF) (i : nat) : res f64 := get (nData f) i.

(** densenumfeature.go:96-99 Put *)
Definition nPut (f : numF) (i : nat) (v : f64) : res numF :=
  let* d := set (nData f) i v in
  let* ms := set (nMissing f) i false in Ok (mkNum d ms (nName f) (nHas f)).

(** densenumfeature.go:641-655 Copy *)
Definition nCopy (f : numF) : numF :=
  let n := length (nMissing f) in
  mkNum (copyinto (repeat f0 n) (nData f)) (copyinto (repeat false n) (nMissing f)) (nName f) false.

(** densenumfeature.go:658-661 CopyInTo: the destination after the call. *)
Definition nCopyInTo (f dst : numF) : numF :=
  mkNum (copyinto (nData dst) (nData f)) (copyinto (nMissing dst) (nMissing f)) (nName dst) (nHas dst).

(** densenumfeature.go:516-529 Mean.  The accumulator pair is [(m, n)]. *)
Definition nMean (f : numF) (cases : list nat) : res f64 :=
  let* (m, n) := foreach cases (fun i '((m, n) : f64 * nat) =>
    let* miss := get (nMissing f) i in
    if miss then Ok (m, n)
    else let* x := get (nData f) i in Ok (fadd m x, n + 1)) (f0, 0) in
  Ok (fdiv m (f_of_nat n)).

(** densenumfeature.go:552-578 Span.  The flag [first] is never cleared. *)
Definition nSpan (f : numF) (cases : list nat) : res f64 :=
  let first := true in
  let* (mn, mx) := foreach cases (fun i '((mn, mx) : f64 * f64) =>
    let* miss := get (nMissing f) i in
    if miss then Ok (mn, mx)
    else
      let* val := get (nData f) i in
      if first then Ok (val, val)
      else if fltb mx val then Ok (mn, val)
      else if fltb val mn then Ok (val, mx)
      else Ok (mn, mx)) (f0, f0) in
  Ok (fsub mx mn).

(** densenumfeature.go:664-683 ImputeMissing *)
Definition nImputeMissing (f : numF) : res numF :=
  let n := length (nMissing f) in
  let* mean := nMean f (seq 0 n) in
  let* (d, ms) :=
    for_up n 0 (fun i '((d, ms) : list f64 * list bool) =>
      let* m := get ms i in
      if m then
        let* d' := set d i mean in
        let* ms' := set ms i false in Ok (d', ms')
      else Ok (d, ms)) (nData f, nMissing f) in
  Ok (mkNum d ms (nName f) false).

(** densenumfeature.go:378-385 FilterMissing *)
Definition nFilterMissing (f : numF) (cases filtered : list nat) : res (list nat) :=
  foreach cases (fun c acc =>
    let* m := get (nMissing f) c in
    Ok (if m then acc else acc ++ [c])) filtered.

(** ** Features, feature matrices and splitters *)

(** featureinterfaces.go: the interface Feature with its two dense
    implementations. *)
Inductive feature := FNum (f : numF) | FCat (f : catF).

Definition fIsMissing (f : feature) (i : nat) : res bool :=
  match f with FNum f => nIsMissing f i | FCat f => cIsMissing f i end.
(** densenumfeature.go:72-74, densecatfeature.go:115-117 MissingVals *)
Definition fMissingVals (f : feature) : bool :=
  match f with FNum f => nHas f | FCat f => cHas f end.
Definition fName (f : feature) : string :=
  match f with FNum f => nName f | FCat f => cName f end.
Definition fLength (f : feature) : nat :=
  match f with FNum f => nLength f | FCat f => cLength f end.

(** featurematrix.go:14-18 FeatureMatrix *)
Record fmatrix := mkFM {
  fmData : list feature;
  fmMap : list (string * nat);
  fmLabels : list string
}.

(** splitter.go:10-15 Splitter.  The [map[string]bool] is the list of its keys
    (only [true] is ever stored by this code base), [nil] for numerical
    splitters is the empty list. *)
Record splitter := mkSpl {
  sFeature : string;
  sNumerical : bool;
  sValue : f64;
  sLeft : list string
}.

(** Lookup in a [map[string]bool] *)
Definition inleft (s : splitter) (v : string) : bool := existsb (String.eqb v) (sLeft s).

(** densenumfeature.go:102-104, densecatfeature.go:157-159 GoesLeft *)
Definition nGoesLeft (f : numF) (i : nat) (s : splitter) : res bool :=
  let* x := get (nData f) i in Ok (fleb x (sValue s)).
Definition cGoesLeft (f : catF) (i : nat) (s : splitter) : res bool :=
  let* c := get (cData f) i in
  let* v := get (cmBack (cMap f)) c in
  Ok (inleft s v).
Definition fGoesLeft (f : feature) (i : nat) (s : splitter) : res bool :=
  match f with FNum f => nGoesLeft f i s | FCat f => cGoesLeft f i s end.
