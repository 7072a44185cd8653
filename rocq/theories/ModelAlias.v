(** What a copy of a categorical feature shares with the original.

    densecatfeature.go:1194-1212 Copy builds [&CatMap{f.Map, f.Back}]: the Go
    map [Map] is a reference and the slice header [Back] refers to the same
    backing array, so both are modelled with an explicit heap.  CatData
    and Missing are freshly allocated by Copy, so they stay plain lists. *)
From Verif Require Import Go F64 ModelFeature.
Local Open Scope string_scope.
Local Open Scope nat_scope.
Local Open Scope list_scope.

(** Maps and backing arrays of strings; an array's capacity is its length. *)
Record heap := mkH { hMaps : list (list (string * nat)); hArrs : list (list string) }.

(** A slice header: array and length (offset is always 0 here). *)
Record sliceH := mkSl { slArr : nat; slLen : nat }.

(** DenseCatFeature (densecatfeature.go:17-24) without name and RandomSearch. *)
Record catH := mkCH {
  hcMap : nat;
  hcBack : sliceH;
  hcData : list nat;
  hcMissing : list bool;
  hcHas : bool
}.

(** [s[i]] *)
Definition getS (h : heap) (s : sliceH) (i : nat) : res string :=
  if i <? slLen s then
    let* a := get (hArrs h) (slArr s) in get a i
  else Panic.

(** [append(s, v)]: in place if the capacity allows, else into a new array of
    twice the capacity (Go's growth for small slices of strings). *)
Definition appendS (h : heap) (s : sliceH) (v : string) : res (heap * sliceH) :=
  let* a := get (hArrs h) (slArr s) in
  if slLen s <? length a then
    let* a' := set a (slLen s) v in
    let* arrs := set (hArrs h) (slArr s) a' in
    Ok (mkH (hMaps h) arrs, mkSl (slArr s) (S (slLen s)))
  else
    let cap := if length a =? 0 then 1 else 2 * length a in
    let a' := firstn (slLen s) a ++ v :: repeat "" (cap - S (slLen s)) in
    Ok (mkH (hMaps h) (hArrs h ++ [a']), mkSl (length (hArrs h)) (S (slLen s))).

(** catmap.go:21-30 CatToNum on the heap. *)
Definition CatToNumH (h : heap) (f : catH) (v : string) : res (heap * catH * nat) :=
  let* m := get (hMaps h) (hcMap f) in
  match assoc v m with
  | Some n => Ok (h, f, n)
  | None =>
      let n := slLen (hcBack f) in
      let* maps := set (hMaps h) (hcMap f) ((v, n) :: m) in
      let* (h', b) := appendS (mkH maps (hArrs h)) (hcBack f) v in
      Ok (h', mkCH (hcMap f) b (hcData f) (hcMissing f) (hcHas f), n)
  end.

(** densecatfeature.go:86-97 Append on the heap. *)
Definition appendH (h : heap) (f : catH) (v : string) : res (heap * catH) :=
  if missing_token v then
    Ok (h, mkCH (hcMap f) (hcBack f) (hcData f ++ [0]) (hcMissing f ++ [true]) true)
  else
    let* (h', f', n) := CatToNumH h f v in
    Ok (h', mkCH (hcMap f') (hcBack f') (hcData f' ++ [n]) (hcMissing f' ++ [false]) (hcHas f')).

(** densecatfeature.go:145-154 PutStr on the heap. *)
Definition putStrH (h : heap) (f : catH) (i : nat) (v : string) : res (heap * catH) :=
  let has := (missing_token v || hcHas f)%bool in
  let* (h', f', n) := CatToNumH h f v in
  let* d := set (hcData f') i n in
  let* ms := set (hcMissing f') i false in
  Ok (h', mkCH (hcMap f') (hcBack f') d ms has).

(** densecatfeature.go:120-123 PutMissing, 131-134 Puti *)
Definition putMissingH (f : catH) (i : nat) : res catH :=
  let* ms := set (hcMissing f) i true in
  Ok (mkCH (hcMap f) (hcBack f) (hcData f) ms true).
Definition putiH (f : catH) (i v : nat) : res catH :=
  let* d := set (hcData f) i v in
  let* ms := set (hcMissing f) i false in
  Ok (mkCH (hcMap f) (hcBack f) d ms (hcHas f)).

(** densecatfeature.go:1194-1212 Copy *)
Definition copyH (f : catH) : catH :=
  let n := length (hcMissing f) in
  mkCH (hcMap f) (hcBack f) (copyinto (repeat 0 n) (hcData f))
       (copyinto (repeat false n) (hcMissing f)) (hcHas f).

(** catmap.go:33-35 NumToCat and densecatfeature.go:137-142 GetStr *)
Definition numToCatH (h : heap) (f : catH) (i : nat) : res string := getS h (hcBack f) i.
Definition getStrH (h : heap) (f : catH) (i : nat) : res string :=
  let* m := get (hcMissing f) i in
  if m then Ok "NA" else let* c := get (hcData f) i in numToCatH h f c.
(** catmap.go:38-45 NCats *)
Definition ncatsH (f : catH) : nat := slLen (hcBack f).

(** The operations a program may perform on a feature. *)
Inductive opH :=
| HAppend (v : string)
| HPutStr (i : nat) (v : string)
| HPuti (i v : nat)
| HPutMissing (i : nat)
| HCatToNum (v : string).

Definition runopH (h : heap) (f : catH) (o : opH) : res (heap * catH) :=
  match o with
  | HAppend v => appendH h f v
  | HPutStr i v => putStrH h f i v
  | HPuti i v => let* f' := putiH f i v in Ok (h, f')
  | HPutMissing i => let* f' := putMissingH f i in Ok (h, f')
  | HCatToNum v => let* (h', f', n) := CatToNumH h f v in Ok (h', f')
  end.
Fixpoint runH (h : heap) (f : catH) (os : list opH) : res (heap * catH) :=
  match os with
  | [] => Ok (h, f)
  | o :: os' => let* (h', f') := runopH h f o in runH h' f' os'
  end.

(** featurematrix.go:374-381 and 465-473: a new feature has its own map and an empty
    Back slice. *)
Definition newH (h : heap) : heap * catH :=
  (mkH (hMaps h ++ [[]]) (hArrs h ++ [[]]),
   mkCH (length (hMaps h)) (mkSl (length (hArrs h)) 0) [] [] false).
