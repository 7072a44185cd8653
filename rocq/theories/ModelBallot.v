(** Model of the ballot boxes and counters: catballotbox.go, numballotbox.go,
    sumballotbox.go, and RunningMean / SparseCounter of utils.go.

    Methods that run under a mutex appear twice: as one function on the
    protected data (the sequential meaning), and as the list of their single
    reads and writes between Lock and Unlock, for the interleaving machine of
    [Conc.v].  Logging (log.Print) is omitted. *)
From Verif Require Import Go F64 ModelFeature Conc.
Local Open Scope string_scope.
Local Open Scope nat_scope.
Local Open Scope list_scope.

Section Ballots.
  Variable N : arith.
  Local Notation zero := (nofZ N 0).

  (** [strconv.ParseFloat(s, 64)]: [None] when it reports an error *)
  Variable ParseFloat : string -> option N.

  (** ** RunningMean (utils.go:20-59) *)

  (** utils.go:20-24 RunningMean, without its mutex *)
  Record rmean := mkRM { rmMean : N; rmCount : N }.
  Definition rm0 : rmean := mkRM zero zero.

  (** utils.go:33-48 WeightedAdd *)
  Definition WeightedAdd (rm : rmean) (val weight : N) : rmean :=
    if negb (nnan N val) && negb (nnan N weight) then
      mkRM (ndiv N (nadd N (nmul N (rmMean rm) (rmCount rm)) (nmul N weight val))
                   (nadd N (rmCount rm) weight))
           (nadd N (rmCount rm) weight)
    else rm.

  (** utils.go:51-57 Read *)
  Definition rmRead (rm : rmean) : N * N := (rmMean rm, rmCount rm).

  (** The same, access by access: utils.go:36 reads Mean, Count, Count and writes
      Mean; utils.go:37 reads and writes Count; utils.go:38-43 only read. *)
  Record wregs := mkWR { r1 : N; r2 : N; r3 : N }.
  Definition wregs0 : wregs := mkWR zero zero zero.
  Definition WeightedAdd_acts (val weight : N) : list (rmean -> wregs -> rmean * wregs) :=
    [ (fun c r => (c, mkWR (rmMean c) (r2 r) (r3 r)));
      (fun c r => (c, mkWR (r1 r) (rmCount c) (r3 r)));
      (fun c r => (c, mkWR (r1 r) (r2 r) (rmCount c)));
      (fun c r => (mkRM (ndiv N (nadd N (nmul N (r1 r) (r2 r)) (nmul N weight val))
                                (nadd N (r3 r) weight)) (rmCount c), r));
      (fun c r => (c, mkWR (rmCount c) (r2 r) (r3 r)));
      (fun c r => (mkRM (rmMean c) (nadd N (r1 r) weight), r)) ].

  (** ** NumBallotBox (numballotbox.go) *)

  (** numballotbox.go:27-33 with utils.go:33-48: the code of one vote.  Nothing
      shared is touched when the prediction does not parse or is NaN. *)
  Definition numVote_code (v : nat * string * N) : list (@instr rmean wregs) :=
    let '(casei, pred, weight) := v in
    match ParseFloat pred with
    | Some x =>
        if negb (nnan N x) && negb (nnan N weight) then
          ILock casei :: map (IAct casei) (WeightedAdd_acts x weight) ++ [IUnlock casei]
        else []
    | None => []
    end.

  (** numballotbox.go:12-25 *)
  Definition numBox := list rmean.
  Definition NewNumBallotBox (size : nat) : numBox := repeat rm0 size.

  (** numballotbox.go:27-33 Vote *)
  Definition numVote (bb : numBox) (casei : nat) (pred : string) (weight : N) : res numBox :=
    match ParseFloat pred with
    | Some v => let* rm := get bb casei in set bb casei (WeightedAdd rm v weight)
    | None => Ok bb
    end.

  (** numballotbox.go:37-40 TallyNum *)
  Definition numTallyNum (bb : numBox) (i : nat) : res N :=
    let* rm := get bb i in Ok (fst (rmRead rm)).

  (** numballotbox.go:42-50 Tally.  [None] stands for "NA", [Some m] for the
      string fmt.Sprintf("%v", m). *)
  Definition numTally (bb : numBox) (i : nat) : res (option N) :=
    let* rm := get bb i in
    let (mean, count) := rmRead rm in
    Ok (if nltb N zero count then Some mean else None).

  (** numballotbox.go:59-82 TallySquaredError for a numerical feature with
      values [data] and mask [miss].  [None]: log.Fatal because no case counts. *)
  Definition TallySquaredError (bb : numBox) (data : list N) (miss : list bool)
    : res (option N) :=
    let* (e, c) :=
      for_up (length miss) 0 (fun i '((e, c) : N * nat) =>
        let* predicted := numTallyNum bb i in
        let* m := get miss i in
        if negb m && negb (nnan N predicted) then
          let* value := get data i in
          let d := nsub N value predicted in
          Ok (nadd N e (nmul N d d), c + 1)
        else Ok (e, c)) (zero, 0) in
    Ok (if c =? 0 then None else Some (ndiv N e (nofZ N (Z.of_nat c)))).

  (** numballotbox.go:85-111 TallyError *)
  Definition numTallyError (bb : numBox) (data : list N) (miss : list bool)
    : res (option N) :=
    let* (mean, total) :=
      for_up (length miss) 0 (fun i '((mean, total) : N * nat) =>
        let* m := get miss i in
        if m then Ok (mean, total)
        else let* v := get data i in Ok (nadd N mean v, total + 1)) (zero, 0) in
    let mean := ndiv N mean (nofZ N (Z.of_nat total)) in
    let* r2 :=
      for_up (length miss) 0 (fun i r2 =>
        let* m := get miss i in
        if m then Ok r2
        else let* v := get data i in
             let d := nsub N v mean in Ok (nadd N r2 (nmul N d d))) zero in
    let r2 := ndiv N r2 (nofZ N (Z.of_nat total)) in
    let* se := TallySquaredError bb data miss in
    Ok (match se with Some e => Some (ndiv N e r2) | None => None end).

  (** numballotbox.go:114-120 TallyR2Score *)
  Definition TallyR2Score (bb : numBox) (data : list N) (miss : list bool) : res (option N) :=
    let* e := numTallyError bb data miss in
    Ok (match e with Some e => Some (nsub N (nofZ N 1) e) | None => None end).

  (** ** SumBallotBox (sumballotbox.go) *)

  (** sumballotbox.go:11-38 *)
  Definition sumBox := list N.
  Definition NewSumBallotBox (size : nat) : sumBox := repeat zero size.

  (** sumballotbox.go:42-50 Vote *)
  Definition sumVote (bb : sumBox) (casei : nat) (pred : string) (weight : N) : res sumBox :=
    match ParseFloat pred with
    | Some v => let* s := get bb casei in set bb casei (nadd N s (nmul N v weight))
    | None => Ok bb
    end.
  (** sumballotbox.go:47, access by access: read Sum, write Sum *)
  Definition sumVote_acts (v weight : N) : list (N -> N -> N * N) :=
    [ (fun c _ => (c, c));
      (fun c r => (nadd N r (nmul N v weight), r)) ].

  (** sumballotbox.go:42-50: the code of one vote *)
  Definition sumVote_code (v : nat * string * N) : list (@instr N N) :=
    let '(casei, pred, weight) := v in
    match ParseFloat pred with
    | Some x => ILock casei :: map (IAct casei) (sumVote_acts x weight) ++ [IUnlock casei]
    | None => []
    end.
  (** Goroutines voting into a new box (a list of votes for each). *)
  Definition numVotes_start (size : nat) (ths : list (list (nat * string * N))) :=
    mkM (NewNumBallotBox size) (repeat false size)
        (map (fun l => (flat_map numVote_code l, wregs0)) ths).
  Definition sumVotes_start (size : nat) (ths : list (list (nat * string * N))) :=
    mkM (NewSumBallotBox size) (repeat false size)
        (map (fun l => (flat_map sumVote_code l, zero)) ths).

  (** sumballotbox.go:63-70 TallyNum *)
  Definition sumTallyNum (bb : sumBox) (i : nat) : res N := get bb i.
  (** sumballotbox.go:55-61 Tally: [Some m] stands for fmt.Sprintf("%v", m). *)
  Definition sumTally (bb : sumBox) (i : nat) : res (option N) :=
    let* v := sumTallyNum bb i in Ok (Some v).

  (** ** CatBallotBox (catballotbox.go) *)

  (** catballotbox.go:9-12: the map of a ballot.  Keys are unique. *)
  Definition ballot := list (nat * N).
  Fixpoint bfind (k : nat) (m : ballot) : option N :=
    match m with
    | [] => None
    | (k', v) :: m' => if k =? k' then Some v else bfind k m'
    end.
  Fixpoint bput (k : nat) (v : N) (m : ballot) : ballot :=
    match m with
    | [] => [(k, v)]
    | (k', v') :: m' => if k =? k' then (k, v) :: m' else (k', v') :: bput k v m'
    end.

  (** catballotbox.go:22-25 *)
  Record catBox := mkCB { cbMap : catmap; cbBox : list ballot }.
  (** catballotbox.go:28-37 NewCatBallotBox *)
  Definition NewCatBallotBox (size : nat) : catBox := mkCB emptyCM (repeat [] size).

  (** catballotbox.go:44-47: the critical section of Vote *)
  Definition credit (m : ballot) (predn : nat) (weight : N) : ballot :=
    let m1 := match bfind predn m with Some _ => m | None => bput predn zero m end in
    match bfind predn m1 with
    | Some v => bput predn (nadd N v weight) m1
    | None => bput predn (nadd N zero weight) m1
    end.

  (** catballotbox.go:41-49 Vote *)
  Definition catVote (bb : catBox) (casei : nat) (pred : string) (weight : N) : res catBox :=
    let (cm, predn) := CatToNum (cbMap bb) pred in
    let* m := get (cbBox bb) casei in
    let* box := set (cbBox bb) casei (credit m predn weight) in
    Ok (mkCB cm box).

  (** catballotbox.go:58-65, for the entries of the map in iteration order *)
  Fixpoint tally_loop (entries : ballot) (predictedn : nat) (votes : N) : nat * N :=
    match entries with
    | [] => (predictedn, votes)
    | (k, v) :: es => if nltb N votes v then tally_loop es k v else tally_loop es predictedn votes
    end.

  (** catballotbox.go:54-75 Tally; [iter] is the iteration order of the map *)
  Definition catTally (bb : catBox) (iter : ballot) : res string :=
    let (predictedn, votes) := tally_loop iter 0 zero in
    if nltb N zero votes then get (cmBack (cbMap bb)) predictedn else Ok "NA".

  (** catballotbox.go:90-119 TallyError.  [iters i] is the iteration order of the
      map of case [i]. *)
  Definition catTallyError (bb : catBox) (f : catF) (iters : nat -> ballot) : res N :=
    let ncats := NCats (cMap f) in
    let* (correct, total) :=
      for_up (cLength f) 0 (fun i '((correct, total) : list nat * list nat) =>
        let* value := cGeti f i in
        let* _ := get (cbBox bb) i in
        let* predicted := catTally bb (iters i) in
        let* m := cIsMissing f i in
        if m then Ok (correct, total)
        else
          let* t := get total value in
          let* total' := set total value (t + 1) in
          let* name := NumToCat (cMap f) value in
          if String.eqb name predicted then
            let* c := get correct value in
            let* correct' := set correct value (c + 1) in Ok (correct', total')
          else Ok (correct, total')) (repeat 0 ncats, repeat 0 ncats) in
    let* e :=
      for_up (length correct) 0 (fun i e =>
        let* ncorrect := get correct i in
        let* t := get total i in
        Ok (nadd N e (ndiv N (nofZ N (Z.of_nat ncorrect)) (nofZ N (Z.of_nat t))))) zero in
    Ok (nsub N (nofZ N 1) (ndiv N e (nofZ N (Z.of_nat ncats)))).
End Ballots.

Arguments mkRM {N}. Arguments rmMean {N}. Arguments rmCount {N}. Arguments rm0 {N}.
Arguments mkCB {N}. Arguments cbMap {N}. Arguments cbBox {N}.

(** ** Categorical votes, access by access

    catballotbox.go:41-49 with catmap.go:21-30 inlined.  CatToNum runs before
    the mutex is taken.  Cell 0 is the shared CatMap, cell [S i] the ballot of
    case [i]. *)
Section CatRace.
  Variable N : arith.
  Inductive ccell := CM (cm : catmap) | CBallot (b : ballot N).
  (** registers: number found ([None]: absent), number to use *)
  Record cregs := mkCR { crFound : option nat; crNum : nat }.
  Definition cregs0 : cregs := mkCR None 0.

  Definition on_cm (f : catmap -> cregs -> catmap * cregs) (c : ccell) (r : cregs)
    : ccell * cregs :=
    match c with CM cm => let (cm', r') := f cm r in (CM cm', r') | _ => (c, r) end.
  Definition on_ballot (f : ballot N -> cregs -> ballot N) (c : ccell) (r : cregs)
    : ccell * cregs :=
    match c with CBallot b => (CBallot (f b r), r) | _ => (c, r) end.

  (** catmap.go:22 / 24 / 25 / 26 *)
  Definition c_lookup (pred : string) : ccell -> cregs -> ccell * cregs := on_cm (fun cm r =>
    match assoc pred (cmMap cm) with
    | Some n => (cm, mkCR (Some n) n)
    | None => (cm, mkCR None 0)
    end).
  Definition c_len : ccell -> cregs -> ccell * cregs := on_cm (fun cm r =>
    match crFound r with
    | Some _ => (cm, r)
    | None => (cm, mkCR None (length (cmBack cm)))
    end).
  Definition c_put (pred : string) : ccell -> cregs -> ccell * cregs := on_cm (fun cm r =>
    match crFound r with
    | Some _ => (cm, r)
    | None => (mkCM ((pred, crNum r) :: cmMap cm) (cmBack cm), r)
    end).
  Definition c_append (pred : string) : ccell -> cregs -> ccell * cregs := on_cm (fun cm r =>
    match crFound r with
    | Some _ => (cm, r)
    | None => (mkCM (cmMap cm) (cmBack cm ++ [pred]), r)
    end).

  (** One vote: the unprotected lookup, then the critical section
      (catballotbox.go:44-47, in one action). *)
  Definition catVote_code (v : nat * string * N) : list (@instr ccell cregs) :=
    let '(casei, pred, weight) := v in
    [ IAct 0 (c_lookup pred); IAct 0 c_len; IAct 0 (c_put pred); IAct 0 (c_append pred);
      ILock (S casei);
      IAct (S casei) (on_ballot (fun b r => credit N b (crNum r) weight));
      IUnlock (S casei) ].

  Definition catVotes_start (size : nat) (ths : list (list (nat * string * N))) :=
    mkM (CM emptyCM :: repeat (CBallot []) size) (repeat false (S size))
        (map (fun l => (flat_map catVote_code l, cregs0)) ths).
End CatRace.

(** ** SparseCounter (utils.go:70-106) *)

Section Assoc.
  Context {V : Type}.
  (** a Go map with int keys; keys unique *)
  Fixpoint mfind (k : nat) (m : list (nat * V)) : option V :=
    match m with
    | [] => None
    | (k', v) :: m' => if k =? k' then Some v else mfind k m'
    end.
  Fixpoint mput (k : nat) (v : V) (m : list (nat * V)) : list (nat * V) :=
    match m with
    | [] => [(k, v)]
    | (k', v') :: m' => if k =? k' then (k, v) :: m' else (k', v') :: mput k v m'
    end.
End Assoc.

(** utils.go:72-75: [None] is the nil map *)
Definition scounter := option (list (nat * list (nat * Z))).

(** utils.go:81-83, 85-87, 88-90 and 91: the four statements of Add.  Reading
    an absent entry gives the zero value. *)
Definition sc_init (m : scounter) : scounter :=
  match m with None => Some [] | Some _ => m end.
Definition sc_row (i : nat) (m : scounter) : scounter :=
  match m with
  | None => None
  | Some mm => match mfind i mm with None => Some (mput i [] mm) | Some _ => m end
  end.
Definition sc_cell (i j : nat) (m : scounter) : scounter :=
  match m with
  | None => None
  | Some mm =>
      match mfind i mm with
      | None => m
      | Some row => match mfind j row with
                    | None => Some (mput i (mput j 0%Z row) mm)
                    | Some _ => m
                    end
      end
  end.
Definition sc_read (i j : nat) (m : scounter) : Z :=
  match m with
  | None => 0%Z
  | Some mm => match mfind i mm with
               | None => 0%Z
               | Some row => match mfind j row with None => 0%Z | Some v => v end
               end
  end.
Definition sc_write (i j : nat) (v : Z) (m : scounter) : scounter :=
  match m with
  | None => None
  | Some mm => match mfind i mm with
               | None => m
               | Some row => Some (mput i (mput j v row) mm)
               end
  end.

(** utils.go:78-93 Add *)
Definition scAdd (i j : nat) (val : Z) (m : scounter) : scounter :=
  let m := sc_cell i j (sc_row i (sc_init m)) in
  sc_write i j (sc_read i j m + val)%Z m.

(** The same, statement by statement between Lock and the deferred Unlock; the
    register holds the count read by utils.go:91. *)
Definition scAdd_acts (i j : nat) (val : Z) : list (scounter -> Z -> scounter * Z) :=
  [ (fun m r => (sc_init m, r));
    (fun m r => (sc_row i m, r));
    (fun m r => (sc_cell i j m, r));
    (fun m r => (m, sc_read i j m));
    (fun m r => (sc_write i j (r + val)%Z m, r)) ].

(** One call; the counter is cell 0. *)
Definition scAdd_code (a : nat * nat * Z) : list (@instr scounter Z) :=
  let '(i, j, val) := a in
  ILock 0 :: map (IAct 0) (scAdd_acts i j val) ++ [IUnlock 0].
(** Goroutines adding to a new counter. *)
Definition scAdds_start (ths : list (list (nat * nat * Z))) :=
  mkM [None] [false] (map (fun l => (flat_map scAdd_code l, 0%Z)) ths).

(** utils.go:97-106 WriteTsv: the triples written, for given iteration orders of
    the outer map and of each row ([fmt.Fprintf] itself is not modelled). *)
Definition WriteTsv (outer : list (nat * list (nat * Z))) : list (nat * nat * Z) :=
  flat_map (fun '(i, row) => map (fun '(j, v) => (i, j, v)) row) outer.
