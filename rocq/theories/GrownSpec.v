(** What a grown tree is: the cases that arrive at its nodes, which nodes split, and
    what is predicted where.  Specification for C39, C40, C42, C71 and C78-C80. *)
From Verif Require Import Go F64 F64Order F64Round ModelFeature ModelSplit SplitSpec ModelTree TreeSpec
  ModelSearch SearchSpec GrowSpec ModelGrow.
Local Open Scope nat_scope.
Local Open Scope list_scope.

(** The cases a split sends to the left, to the right and to the missing branch. *)
Definition to_left (f : feature) (code : coded) : list nat -> list nat :=
  filter (fun c => negb (fmissing f c) && coded_left f code c).
Definition to_right (f : feature) (code : coded) : list nat -> list nat :=
  filter (fun c => negb (fmissing f c) && negb (coded_left f code c)).
Definition to_missing (f : feature) : list nat -> list nat := filter (fmissing f).

(** The cases that arrive at the node at path [q]. *)
Definition heads (fm : fmatrix) (d : nd) (s : dir) (c : nat) : bool :=
  match turn fm d c with Some t => if dir_dec t s then true else false | None => false end.
Fixpoint arriving (fm : fmatrix) (n : node) (q : path) (cases : list nat) : list nat :=
  match q with
  | [] => cases
  | s :: q' =>
      match n with
      | Nil => []
      | Node d l r m => arriving fm (child n s) q' (filter (heads fm d s) cases)
      end
  end.

(** A use of a feature in a split: the feature, the depth, the decrease reported. *)
Definition use (A : arith) : Type := nat * nat * A.
Definition uFeat {A : arith} (u : use A) : nat := fst (fst u).
Definition uDepth {A : arith} (u : use A) : nat := snd (fst u).
Definition uDec {A : arith} (u : use A) : A := snd u.

(** The split nodes of a tree, parents first, left to right. *)
Fixpoint split_paths (n : node) : list path :=
  match n with
  | Nil => []
  | Node d l r m =>
      if terminal d then []
      else [] :: map (cons DL) (split_paths l) ++ map (cons DR) (split_paths r) ++ map (cons DM) (split_paths m)
  end.

(** The counters after the uses [us]: each one was given the decreases of the splits
    on its feature, in order; nothing is lost when the counters are not kept. *)
Definition decreases_of {A : arith} (i : nat) (us : list (use A)) : list A :=
  map uDec (filter (fun u => uFeat u =? i) us).
Definition depths_of {A : arith} (i : nat) (us : list (use A)) : list nat :=
  map uDepth (filter (fun u => uFeat u =? i) us).
Definition counted {A : arith} (us : list (use A)) (imp imp' : option (list (rmean A))) : Prop :=
  match imp, imp' with
  | None, None => True
  | Some l, Some l' => length l' = length l /\
      forall i rm, nth_error l i = Some rm ->
        nth_error l' i = Some (fold_left (fun rm x => rmAdd A x rm) (decreases_of i us) rm)
  | _, _ => False
  end.
(** The recorded depth: the smallest one, where 0 stands for "not used yet". *)
Definition shallower (d x : nat) : nat := if (d =? 0) || (x <? d) then x else d.
Definition deep {A : arith} (us : list (use A)) (du du' : option (list nat)) : Prop :=
  match du, du' with
  | None, None => True
  | Some l, Some l' => length l' = length l /\
      forall i d, nth_error l i = Some d -> nth_error l' i = Some (fold_left shallower (depths_of i us) d)
  | _, _ => False
  end.

Section Grown.
  Variable A : arith.
  Variable St : Type.
  Variable T : target A St.
  Variable predict : list nat -> res string.
  Variable rnd : nat -> nat.
  Variable K : Type.
  Variable kCopyFrom : K -> K.
  Variable kShuffleCases : (nat -> nat) -> list nat -> K -> res K.
  Variable kTarget : K -> target A St.
  Variable p : params.
  Variable cans0 : list nat.

  (** BestSplitter was run on the cases (in some order) and reported this.  The
      features it left out as constant cannot be split on these cases. *)
  Definition constants_hopeless (cans : list nat) (nb : nat) (cases : list nat) : Prop :=
    forall i, In i (skipn (length cans - nb) cans) ->
      exists f, nth_error (pData p) i = Some f /\ hopeless f (pLeaf p) cases.
  Definition plain_search : Prop :=
    pVet p = false /\ pEvalOob p = false /\ Forall deterministic (pData p).
  Definition reported (cases : list nat) (fi : nat) (code : coded) (dec : A) : Prop :=
    exists cs cans oob nb al k b, Permutation cases cs /\
      BestSplitter A St T rnd K kCopyFrom kShuffleCases kTarget p cs cans oob nb al k = Ok b /\
      bFi A St K b = fi /\ bCode A St K b = code /\ bDec A St K b = dec /\
      (plain_search -> constants_hopeless cans nb cases).

  (** The node may be split. *)
  Definition may_split (depth : nat) (cases : list nat) : Prop :=
    2 * pLeaf p <= length cases /\ (pMaxDepth p = 0 \/ depth < pMaxDepth p).

  (** [grown depth cases n us]: the tree [n] was grown at this depth from the cases,
      with the uses [us] of features. *)
  Fixpoint grown (depth : nat) (cases : list nat) (n : node) (us : list (use A)) : Prop :=
    match n with
    | Nil => False
    | Node d l r m =>
        if terminal d then
          l = Nil /\ r = Nil /\ m = Nil /\ us = [] /\
          (exists cs, Permutation cases cs /\ predict cs = Ok (dPred d)) /\
          (* a leaf: too small, too deep, or no split was found *)
          (may_split depth cases -> exists fi dec, reported cases fi CNil dec)
        else
          exists f dec ul ur um,
            In (dFeat d) cans0 /\ nth_error (pData p) (dFeat d) = Some f /\ code_fits f (dCode d) /\
            (exists s, dSpl d = Some s /\ fDecodeSplit f (dCode d) = Ok s) /\
            may_split depth cases /\
            reported cases (dFeat d) (dCode d) dec /\ nltb A (least A) dec = true /\
            pLeaf p <= length (to_left f (dCode d) cases) /\
            pLeaf p <= length (to_right f (dCode d) cases) /\
            grown (S depth) (to_left f (dCode d) cases) l ul /\
            grown (S depth) (to_right f (dCode d) cases) r ur /\
            (if pSplitMissing p && negb (length (to_missing f cases) =? 0)
             then grown (S depth) (to_missing f cases) m um
             else m = (if pSplitMissing p then newNode else Nil) /\ um = []) /\
            us = (dFeat d, depth, dec) :: ul ++ ur ++ um
    end.
End Grown.
