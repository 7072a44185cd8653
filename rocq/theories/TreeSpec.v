(** What a decision tree does to one case, independently of the traversal code. *)
From Verif Require Import Go F64 ModelFeature ModelSplit SplitSpec ModelTree.
Local Open Scope nat_scope.
Local Open Scope list_scope.

Inductive dir := DL | DR | DM.
Definition path := list dir.
Definition dir_dec : forall a b : dir, {a = b} + {a <> b}.
Proof. decide equality. Defined.
Definition path_dec : forall a b : path, {a = b} + {a <> b} := list_eq_dec dir_dec.

Definition child (n : node) (s : dir) : node :=
  match n with
  | Nil => Nil
  | Node _ l r m => match s with DL => l | DR => r | DM => m end
  end.
Fixpoint at_path (n : node) (p : path) : node :=
  match p with
  | [] => n
  | s :: p' => at_path (child n s) p'
  end.

(** The feature a node splits on and which of its cases go left: the coded
    split if there is one, else the splitter.  [None] for a terminal node. *)
Definition column (fm : fmatrix) (i : nat) : feature :=
  nth i (fmData fm) (FNum (mkNum [] [] EmptyString false)).
Definition test_of (fm : fmatrix) (d : nd) : option (feature * (nat -> bool)) :=
  match dCode d with
  | CNil =>
      match dSpl d with
      | None => None
      | Some s => let f := column fm (fmIndex fm (sFeature s)) in Some (f, splitter_left f s)
      end
  | code => let f := column fm (dFeat d) in Some (f, coded_left f code)
  end.
Definition terminal (d : nd) : bool :=
  isCNil (dCode d) && match dSpl d with None => true | Some _ => false end.

(** Which way case [c] goes at a node; [None] at a terminal node. *)
Definition turn (fm : fmatrix) (d : nd) (c : nat) : option dir :=
  match test_of fm d with
  | None => None
  | Some (f, goes) => Some (if fmissing f c then DM else if goes c then DL else DR)
  end.

(** Following the splitters with a single case: the path of the terminal node
    it ends in; [None] when it is missing at a splitter without missing
    branch. *)
Fixpoint follow (fm : fmatrix) (n : node) (c : nat) : option path :=
  match n with
  | Nil => None
  | Node d l r m =>
      match turn fm d c with
      | None => Some []
      | Some DL => option_map (cons DL) (follow fm l c)
      | Some DR => option_map (cons DR) (follow fm r c)
      | Some DM => option_map (cons DM) (follow fm m c)
      end
  end.
Definition ends_at (fm : fmatrix) (n : node) (p : path) (c : nat) : bool :=
  match follow fm n c with
  | Some q => if path_dec q p then true else false
  | None => false
  end.

(** Splitters have both children, terminal nodes have none (a terminal node may
    have a stale missing branch). *)
Fixpoint well_formed (n : node) : Prop :=
  match n with
  | Nil => True
  | Node d l r m =>
      (if terminal d then l = Nil /\ r = Nil else l <> Nil /\ r <> Nil)
      /\ well_formed l /\ well_formed r /\ well_formed m
  end.

(** The matrix can answer the questions of the tree for these cases. *)
Definition answers (fm : fmatrix) (cases : list nat) (d : nd) : Prop :=
  match dCode d with
  | CNil =>
      match dSpl d with
      | None => True
      | Some s => fmIndex fm (sFeature s) < length (fmData fm) /\
                  flag_sound (column fm (fmIndex fm (sFeature s))) /\
                  Forall (has_case (column fm (fmIndex fm (sFeature s)))) cases
      end
  | code => dFeat d < length (fmData fm) /\ code_fits (column fm (dFeat d)) code /\
            flag_sound (column fm (dFeat d)) /\ Forall (has_case (column fm (dFeat d))) cases
  end.
Fixpoint usable (fm : fmatrix) (cases : list nat) (n : node) : Prop :=
  match n with
  | Nil => True
  | Node d l r m => answers fm cases d /\ usable fm cases l /\ usable fm cases r /\ usable fm cases m
  end.

(** Windows of one array that do not overlap. *)
Definition apart (a b : nat * nat) : Prop := snd a <= fst b \/ snd b <= fst a.

(** The nodes a single case passes through on its way. *)
Fixpoint route (fm : fmatrix) (n : node) (c : nat) : list nd :=
  match n with
  | Nil => []
  | Node d l r m =>
      d :: match turn fm d c with
           | None => []
           | Some DL => route fm l c
           | Some DR => route fm r c
           | Some DM => route fm m c
           end
  end.

(** All nodes of a tree, and the fields of a tree that do not concern coded
    splits. *)
Fixpoint nodes_of (n : node) : list nd :=
  match n with
  | Nil => []
  | Node d l r m => d :: nodes_of l ++ nodes_of r ++ nodes_of m
  end.
Fixpoint paths_of (n : node) : list path :=
  match n with
  | Nil => []
  | Node d l r m => [] :: map (cons DL) (paths_of l) ++ map (cons DR) (paths_of r)
                       ++ map (cons DM) (paths_of m)
  end.

(** Case [c] passes through the node at path [p]. *)
Fixpoint passes (fm : fmatrix) (n : node) (c : nat) (p : path) : Prop :=
  match p, n with
  | _, Nil => False
  | [], _ => True
  | s :: p', Node d l r m => turn fm d c = Some s /\ passes fm (child n s) c p'
  end.

(** Two cases end in the same leaf. *)
Definition shares (fm : fmatrix) (i j : nat) (n : node) : bool :=
  match follow fm n i with
  | Some p => ends_at fm n p j
  | None => false
  end.
Definition reaches (fm : fmatrix) (i : nat) (n : node) : bool :=
  match follow fm n i with Some _ => true | None => false end.

(** ** The scikit layout *)

(** What is exported of a node: splitters with their two branches. *)
Fixpoint exportable (n : node) : Prop :=
  match n with
  | Nil => False
  | Node d l r m => match dSpl d with None => True | Some _ => exportable l /\ exportable r end
  end.
Fixpoint sksize (n : node) : nat :=
  match n with
  | Nil => 0
  | Node d l r m => match dSpl d with None => 1 | Some _ => 1 + sksize l + sksize r end
  end.
Fixpoint skheight (n : node) : nat :=
  match n with
  | Nil => 0
  | Node d l r m => match dSpl d with None => 0 | Some _ => S (Nat.max (skheight l) (skheight r)) end
  end.
(** [reads ns i n idx]: starting at index [i] and following the child indices of
    the array gives the tree [n]; [idx] lists the indices met on the way. *)
Inductive reads (ns : list sknode) : nat -> node -> list nat -> Prop :=
| reads_leaf i d l r m x :
    dSpl d = None -> nth_error ns i = Some x -> skLeft x = (-1)%Z -> skRight x = (-1)%Z ->
    reads ns i (Node d l r m) [i]
| reads_split i d l r m s x a b ia ib :
    dSpl d = Some s -> nth_error ns i = Some x ->
    skFeat x = dFeat d -> skThr x = sValue s ->
    skLeft x = Z.of_nat a -> skRight x = Z.of_nat b -> i < a -> i < b ->
    reads ns a l ia -> reads ns b r ib ->
    reads ns i (Node d l r m) (i :: ia ++ ib).

(** ** Paths in a heap of nodes *)

Fixpoint dirs (s : string) : path :=
  match s with
  | EmptyString => []
  | String c s' =>
      if Ascii.eqb c "L" then DL :: dirs s'
      else if Ascii.eqb c "R" then DR :: dirs s'
      else if Ascii.eqb c "M" then DM :: dirs s'
      else dirs s'
  end.
Definition hchild (x : hnode) (s : dir) : option nat :=
  match s with DL => hL x | DR => hR x | DM => hM x end.
(** The node found in heap [h] by following [p] from [k]. *)
Fixpoint find (h : list hnode) (k : nat) (p : path) : option nat :=
  match p with
  | [] => Some k
  | s :: p' => match nth_error h k with
               | None => None
               | Some x => match hchild x s with None => None | Some k' => find h k' p' end
               end
  end.
