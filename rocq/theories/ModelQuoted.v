(** Reading matrices with quoted fields: ParseAFM and LoadCases of featurematrix.go over
    the whole of encoding/csv (ModelMatrix.v treats every quote as an error). *)
From Verif Require Import Go F64 ModelFeature ModelText ModelMatrix ModelExport.
Local Open Scope string_scope.
Local Open Scope nat_scope.
Local Open Scope list_scope.

(** csv.Reader.Read, called until it fails: the records with tab as comma, [None] for a
    quote at a wrong place, after which nobody reads on.  Empty lines are skipped. *)
Fixpoint tsv_records (fuel : nat) (s : bytes) : res (list (option (list bytes))) :=
  match fuel with
  | 0 => Spin
  | S fuel =>
      match s with
      | [] => Ok []
      | c :: s' =>
          if Ascii.eqb c nl then tsv_records fuel s'
          else match csv_scan tab s CStart [] [] with
               | None => Ok [None]
               | Some (fs, rest) => let* rs := tsv_records fuel rest in Ok (Some fs :: rs)
               end
      end
  end.

Section Quoted.
  Variable ParseFloat : string -> option f64.
  Variable itoa : nat -> string.

  (** featurematrix.go:316-341 LoadCases with the records left; [n] fields each, as in
      the header. *)
  Fixpoint qLoadCases (n : nat) (rs : list (option (list bytes))) (data : list feature) (labels : list string)
    : res (list feature * list string) :=
    match rs with
    | Some fs :: rs =>
        if length fs =? n then
          let record := map T fs in
          let* l := get record 0 in
          let* data := append_case ParseFloat (tl record) data in
          qLoadCases n rs data (labels ++ [l])
        else Ok (data, labels)
    | _ => Ok (data, labels)
    end.

  (** featurematrix.go:391-406: features in rows *)
  Fixpoint qparse_rows (n : nat) (rs : list (option (list bytes))) (data : list feature) (lookup : list (string * nat))
    : res (list feature * list (string * nat)) :=
    match rs with
    | Some fs :: rs =>
        if length fs =? n then
          let record := map T fs in
          let* f := ParseFeature ParseFloat record in
          let* name := get record 0 in
          qparse_rows n rs (data ++ [f]) ((name, length data) :: lookup)
        else Ok (data, lookup)
    | _ => Ok (data, lookup)
    end.

  (** featurematrix.go:354-407: the matrix of the records.  [Panic]: no header, a header
      that cannot be read (Read gives no fields, then [headers[1:]]; later versions of Go
      give the fields before the error), no column beside the first. *)
  Definition parse_records (rs : list (option (list bytes))) : res fmatrix :=
    match rs with
    | Some fs :: rs =>
        let headers := tl (map T fs) in
        let n := length fs in
        let* h0 := get headers 0 in
        let* typed := if 1 <? String.length h0
                      then let* sniff := prefix2 h0 in
                           Ok ((sniff =? "N:")%string || (sniff =? "C:")%string || (sniff =? "B:")%string)
                      else Ok false in
        if typed then
          let* (data, lookup) := foreach (combine (seq 0 (length headers)) headers)
            (fun '((i, label) : nat * string) '((data, lookup) : list feature * list (string * nat)) =>
              let* p := prefix2 label in
              Ok (data ++ [if (p =? "N:")%string then newNum label else newCat label], (label, i) :: lookup)) ([], []) in
          let* (data, labels) := qLoadCases n rs data [] in
          Ok (mkFM data lookup labels)
        else
          let* (data, lookup) := qparse_rows n rs [] [] in
          Ok (mkFM data lookup headers)
    | _ => Panic
    end.

  (** featurematrix.go:347-408 ParseAFM *)
  Definition qParseAFM (input : bytes) : res fmatrix :=
    let* rs := tsv_records (S (length (unix input))) (unix input) in parse_records rs.
End Quoted.
