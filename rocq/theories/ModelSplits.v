(** Model of the record of splits leafcount writes with -splits. *)
From Verif Require Import Go F64 Conc ModelFeature ModelSplit ModelTree.
Local Open Scope string_scope.
Local Open Scope nat_scope.
Local Open Scope list_scope.

(** leafcount.go:24 splits, a map[string][]string. *)
Definition smap : Type := list (string * list string).
Fixpoint sget (k : string) (m : smap) : option (list string) :=
  match m with
  | [] => None
  | (k', v) :: m => if String.eqb k k' then Some v else sget k m
  end.
Fixpoint sset (k : string) (v : list string) (m : smap) : smap :=
  match m with
  | [] => [(k, v)]
  | (k', v') :: m => if String.eqb k k' then (k, v) :: m else (k', v') :: sset k v m
  end.

Section Splits.
  Variable show : f64 -> string.                         (* fmt.Sprintf with %v *)
  Variable ord : nat -> list string -> list string.      (* the order in which the n-th range visits a map *)

  (** leafcount.go:90-101: the text of a split; [n] numbers the visit. *)
  Definition split_text (n : nat) (s : splitter) : string :=
    if sNumerical s then show (sValue s) else String.concat "," (ord n (sLeft s)).

  (** leafcount.go:69, 82-106: what the goroutine notes about its trees, as the
      pairs (feature, text) in the order of the notes. *)
  Definition tree_notes (trees : list node) : res (list (string * string)) :=
    foreach trees (fun t notes =>
      let* (_, notes) := Climb (fun d notes =>
        (d, match dSpl d with
            | Some s => notes ++ [(sFeature s, split_text (length notes) s)]
            | None => notes
            end)) t notes in
      Ok notes) [].
End Splits.

(** leafcount.go:85-89 and 102, for one node: look the feature up, make an empty list if
    there was none, read the list, store it with the text appended.  The goroutines share
    the map and there is no lock.  The register holds what was read last.  Simplified:
    Go's run time may also stop the program when it sees two goroutines in a map, and
    lists that share an array are values here. *)
Definition look (name : string) (m : smap) (r : option (list string)) : smap * option (list string) := (m, sget name m).
Definition make_list (name : string) (m : smap) (r : option (list string)) : smap * option (list string) :=
  (match r with None => sset name [] m | Some _ => m end, r).
Definition store (name text : string) (m : smap) (r : option (list string)) : smap * option (list string) :=
  (sset name (match r with Some l => l | None => [] end ++ [text]) m, r).
Definition note_acts (note : string * string) : list (smap -> option (list string) -> smap * option (list string)) :=
  let (name, text) := note in [look name; make_list name; look name; store name text].
Definition note_code (notes : list (string * string)) : list (@instr smap (option (list string))) :=
  map (IAct 0) (flat_map note_acts notes).

(** leafcount.go:54-114: one goroutine for each list of notes. *)
Definition splits_start (ths : list (list (string * string))) : @mach smap (option (list string)) :=
  mkM [[]] [false] (map (fun notes => (note_code notes, None)) ths).
