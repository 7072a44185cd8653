(** Model of the command line programs around the library: what growforest sets up
    before and between the forests it grows (growforest/growforest.go), its report
    on test data, and what applyforest/applyforest.go prints.

    Flags are given parsed.  Reading files, compiling regular expressions and
    decoding JSON are not modelled: the first columns of the blacklist file and the
    predicates of the regular expressions are parameters. *)
From Verif Require Import Go F64 ModelFeature ModelSearch ModelText ModelMatrix ModelBallot.
Local Open Scope string_scope.
Local Open Scope nat_scope.
Local Open Scope list_scope.

(** ** Which features are candidates *)

(** growforest/growforest.go:262-265, 283-286, 296-299: state blacklistis, blacklisted *)
Definition blacken (i : nat) (s : list bool * nat) : res (list bool * nat) :=
  let '(bl, n) := s in
  let* b := get bl i in
  if b then Ok s else let* bl := set bl i true in Ok (bl, n + 1).

(** growforest/growforest.go:249-267: [ids] are the first fields of the lines *)
Definition blacklist_file (lookup : list (string * nat)) (ids : list string) (s : list bool * nat)
  : res (list bool * nat) :=
  foreach ids (fun id s =>
    match assoc id lookup with
    | None => Ok s
    | Some i => blacken i s
    end) s.

(** growforest/growforest.go:280-290 (with [re] the match) and 293-304 (with its negation) *)
Definition blacken_names (re : string -> bool) (targeti : nat) (data : list feature) (s : list bool * nat)
  : res (list bool * nat) :=
  foreach (combine (seq 0 (length data)) data) (fun '((i, f) : nat * feature) s =>
    if negb (targeti =? i) && re (fName f) then blacken i s else Ok s) s.

(** growforest/growforest.go:239-307.  [None]: log.Fatal, no such target.  The result is
    targeti, blacklistis and nFeatures, which may be negative. *)
Definition select_features (lookup : list (string * nat)) (data : list feature) (ids : list string)
    (target : string) (blockRE includeRE : option (string -> bool)) : res (option (nat * list bool * Z)) :=
  let* s := blacklist_file lookup ids (repeat false (length data), 0) in
  match assoc target lookup with
  | None => Ok None
  | Some targeti =>
      let* s := match blockRE with None => Ok s | Some re => blacken_names re targeti data s end in
      let* (bl, n) := match includeRE with
                      | None => Ok s
                      | Some re => blacken_names (fun x => negb (re x)) targeti data s
                      end in
      Ok (Some (targeti, bl, (Z.of_nat (length data) - Z.of_nat n - 1)%Z))
  end.

(** growforest/growforest.go:593-598 *)
Definition candidates_of (n targeti : nat) (bl : list bool) : res (list nat) :=
  for_up n 0 (fun i cans =>
    if i =? targeti then Ok cans
    else let* b := get bl i in Ok (if b then cans else cans ++ [i])) [].

(** ** mTry, leafSize and nSamples *)
Section Sizes.
  (** strconv.ParseFloat(s, 64) and strconv.ParseInt(s, 0, 0); [None] is an error *)
  Variable ParseFloat : string -> option f64.
  Variable ParseInt : string -> option Z.
  (** int(math.Ceil(x)) *)
  Variable ceil : f64 -> Z.
  (** int(math.Ceil(math.Sqrt(float64(n)))) *)
  Variable sqrt_ceil : Z -> Z.

  (** utils.go:117-139 ParseAsIntOrFractionOfTotal *)
  Definition ParseAsIntOrFractionOfTotal (term : string) (total : Z) : Z :=
    if (term =? "")%string then 0%Z
    else if existsb (Ascii.eqb "."%char) (B term) then
      match ParseFloat term with
      | Some frac => ceil (fmul frac (f_of_Z total))
      | None => 0%Z
      end
    else match ParseInt term with Some count => count | None => 0%Z end.

  (** growforest/growforest.go:310-314, and 822-826 with sigcount for nFeatures *)
  Definition mTry_of (term : string) (nFeatures : Z) : Z :=
    let m := ParseAsIntOrFractionOfTotal term nFeatures in
    if (m <=? 0)%Z then sqrt_ceil nFeatures else m.

  (** growforest/growforest.go:365-377; [ncats] is targetf.NCats() *)
  Definition leafSize_of (term : string) (nNonMissing : Z) (boost : bool) (ncats : nat) : Z :=
    let l := ParseAsIntOrFractionOfTotal term nNonMissing in
    if (l <=? 0)%Z then
      if boost then (nNonMissing / 3)%Z else if ncats =? 0 then 4%Z else 1%Z
    else l.

  (** growforest/growforest.go:381-384 *)
  Definition nSamples_of (term : string) (nNonMissing : Z) : Z :=
    let n := ParseAsIntOrFractionOfTotal term nNonMissing in
    if (n <=? 0)%Z then nNonMissing else n.
End Sizes.

(** growforest/growforest.go:354-362: the cases whose target is known; [miss] is the
    mask of the target *)
Definition count_known (miss : list bool) : nat := length (filter negb miss).

(** ** ACE: artificial contrasts with ensembles *)
Section Ace.
  Variable N : arith.
  Local Notation zero := (nofZ N 0).
  (** p and m of stats.Ttest *)
  Variable ttest : list N -> list N -> N * N.
  (** What a forest leaves in imppnt: for every feature the mean and the count; the
      argument are the number of the forest and blacklistis. *)
  Variable forest : nat -> list bool -> list (N * N).
  (** int(math.Ceil(math.Sqrt(float64(n)))) or -mTry: growforest/growforest.go:822-826 *)
  Variable mtry : nat -> Z.

  (** growforest/growforest.go:538-541 *)
  Definition ace_blacklist (firstace targeti : nat) (bl : list bool) : res (list bool) :=
    let* bl := for_up firstace 0 (fun i bl => let* b := get bl i in Ok (bl ++ [b])) bl in
    set bl (targeti + firstace) true.

  (** growforest/growforest.go:790-793, [mean * float64(count) / float64(nTrees)]; the
      count of a RunningMean is a float64 *)
  Definition ace_record (nTrees : nat) (foresti : nat) (scores : list (N * N)) (aceImps : list (list N))
    : res (list (list N)) :=
    for_up (length aceImps) 0 (fun i aceImps =>
      let* (mean, count) := get scores i in
      let* row := get aceImps i in
      let* row := set row foresti (ndiv N (nmul N mean count) (nofZ N (Z.of_nat nTrees))) in
      set aceImps i row) aceImps.

  (** growforest/growforest.go:805-821 *)
  Definition ace_select (cutoff : N) (firstace targeti : nat) (aceImps : list (list N)) (bl : list bool)
    : res (list bool * nat) :=
    for_up (length bl) 0 (fun i '((bl, sigcount) : list bool * nat) =>
      let* (bl, sigcount) :=
        (if i <? firstace then
           let* b := get bl i in
           if b then Ok (bl, sigcount)
           else
             let* X := get aceImps i in
             let* Y := get aceImps (i + firstace) in
             let '(p, m) := ttest X Y in
             if nltb N p cutoff && nltb N zero m && negb (i =? targeti)
             then let* bl := set bl i false in Ok (bl, sigcount + 1)
             else let* bl := set bl i true in Ok (bl, sigcount)
         else Ok (bl, sigcount)) in
      if firstace <=? i then let* bl := set bl i true in Ok (bl, sigcount) else Ok (bl, sigcount)) (bl, 0).

  (** The variables of the loop over the forests, and the candidates and mTry every
      forest was grown with. *)
  Record ace_state := mkAce {
    aBl : list bool; aImps : list (list N); aTry : Z; aTrace : list (list nat * Z)
  }.

  (** growforest/growforest.go:574-829, one forest with -ace; [nForest], [cutoff] as there,
      [ndata] is len(data.Data).  Comparing with 0.0: [cutoff == 0.0], [cutoff > 0]. *)
  Definition ace_forest (cutoff : N) (nForest nTrees firstace targeti ndata foresti : nat) (s : ace_state)
    : res ace_state :=
    let* cans := candidates_of ndata targeti (aBl s) in
    let trace := aTrace s ++ [(cans, aTry s)] in
    let eq0 := nleb N cutoff zero && nleb N zero cutoff in
    if eq0 || (foresti + 1 <? nForest) then
      let* imps := ace_record nTrees foresti (forest foresti (aBl s)) (aImps s) in
      if nltb N zero cutoff && (foresti + 2 =? nForest) then
        let* (bl, sigcount) := ace_select cutoff firstace targeti imps (aBl s) in
        Ok (mkAce bl imps (mtry sigcount) trace)
      else Ok (mkAce (aBl s) imps (aTry s) trace)
    else Ok (mkAce (aBl s) (aImps s) (aTry s) trace).

  (** growforest/growforest.go:530-552, 574-829.  [bl] is blacklistis before the contrasts
      are added, so its length is firstace. *)
  Definition ace_main (cutoff : N) (ace nTrees targeti : nat) (bl : list bool) (mTry : Z) : res ace_state :=
    let firstace := length bl in
    let* bl := ace_blacklist firstace targeti bl in
    let ndata := firstace + firstace in
    let nForest := if nltb N zero cutoff then ace + 1 else ace in
    for_up nForest 0 (ace_forest cutoff nForest nTrees firstace targeti ndata)
      (mkAce bl (repeat (repeat zero ace) ndata) mTry []).
End Ace.
Arguments mkAce {N}. Arguments aBl {N}. Arguments aImps {N}. Arguments aTry {N}. Arguments aTrace {N}.

(** ** The target of the trees *)

(** The types a target can have, with what they embed.  KGradClass embeds a
    GradBoostTarget of its own residual (gradboostclasstarget.go:26-33), KDensity
    embeds nothing (densitytarget.go:11-14). *)
Inductive wrapper :=
| WL1 | WOrdinal | WGrad | WNumAda
| WNP | WRegret | WDEntropy | WAdaCost | WWRF | WEntropy | WAda | WHellinger | WTrans.
Inductive kind :=
| KNum | KCat
| KWrap (w : wrapper) (inner : kind)
| KGradClass | KDensity.

(** Whether a wrapper embeds a NumFeature (otherwise a CatFeature): l1target.go:10-12,
    ordinaltarget.go:12-16, gradboosttarget.go:10-14, numadaboostingtarget.go:11-15. *)
Definition wraps_num (w : wrapper) : bool :=
  match w with WL1 | WOrdinal | WGrad | WNumAda => true | _ => false end.
(** The assertions [targetf.(CloudForest.NumFeature)] and [targetf.(CloudForest.CatFeature)]
    (featureinterfaces.go:48-58, 63-77): the methods are promoted from the embedded feature. *)
Definition is_num (k : kind) : bool :=
  match k with KNum | KGradClass => true | KWrap w _ => wraps_num w | _ => false end.
Definition is_cat (k : kind) : bool :=
  match k with KCat => true | KWrap w _ => negb (wraps_num w) | _ => false end.

(** The number of parameters of the method Boost: gradboosttarget.go:44,
    gradboostclasstarget.go:79 (two); adaboosttarget.go:115, adacosttarget.go:131,
    numadaboostingtarget.go:80 (one).  NumFeature and CatFeature have no such method, so
    none is promoted. *)
Definition boost_params (k : kind) : option nat :=
  match k with
  | KWrap WGrad _ | KGradClass => Some 2
  | KWrap WAda _ | KWrap WAdaCost _ | KWrap WNumAda _ => Some 1
  | _ => None
  end.
(** featureinterfaces.go:93-96 BoostingTarget asks for two *)
Definition is_boosting (k : kind) : bool :=
  match boost_params k with Some n => n =? 2 | None => false end.
(** featureinterfaces.go:98-101 TargetWithIntercept: gradboosttarget.go:39, gradboostclasstarget.go:74 *)
Definition has_intercept (k : kind) : bool :=
  match k with KWrap WGrad _ | KGradClass => true | _ => false end.
(** featureinterfaces.go:12-43 Feature: everything but DensityTarget *)
Definition is_feature (k : kind) : bool := match k with KDensity => false | _ => true end.

(** splitallocations.go:71: [target.(Feature).Copy()].  Copy is promoted from what is
    embedded, down to the plain feature. *)
Fixpoint copied (k : kind) : kind :=
  match k with
  | KWrap _ inner => copied inner
  | KGradClass => KNum
  | _ => k
  end.

Record tflags := mkTF {
  tDensity : bool; tL1 : bool; tOrdinal : bool; tGradboost : f64; tAdaboost : bool;
  tNP : bool; tCosts : string; tDentropy : string; tAdacosts : string; tRfweights : string;
  tEntropy : bool; tHellinger : bool; tUnlabeled : string; tVet : bool
}.
(** [gradboost != 0.0] *)
Definition grads (fl : tflags) : bool := negb (feqb (tGradboost fl) f0).
(** growforest/growforest.go:203 *)
Definition boosts (fl : tflags) : bool := tAdaboost fl || grads fl.
(** [s != ""] *)
Definition given (s : string) : bool := negb (s =? "")%string.

(** growforest/growforest.go:411-432: the wrapping of a numerical target.  The assertions
    to NumFeature cannot fail here; they are in the model. *)
Definition assert (b : bool) (k : kind) : res kind := if b then Ok k else Panic.
Definition wrap_num (fl : tflags) (k : kind) : res kind :=
  let* k := if tL1 fl then assert (is_num k) (KWrap WL1 k) else Ok k in
  let* k := if tOrdinal fl then assert (is_num k) (KWrap WOrdinal k) else Ok k in
  if grads fl then assert (is_num k) (KWrap WGrad k)
  else if tAdaboost fl then assert (is_num k) (KWrap WNumAda k)
  else Ok k.
(** growforest/growforest.go:434-513.  JSON errors (log.Fatal) are not modelled. *)
Definition wrap_cat (fl : tflags) (k : kind) : res kind :=
  let wrap w := assert (is_cat k) (KWrap w k) in
  let* k := if tNP fl then wrap WNP
            else if given (tCosts fl) then wrap WRegret
            else if given (tDentropy fl) then wrap WDEntropy
            else if given (tAdacosts fl) then wrap WAdaCost
            else if given (tRfweights fl) then wrap WWRF
            else if tEntropy fl then wrap WEntropy
            else if tAdaboost fl then wrap WAda
            else if tHellinger fl then wrap WHellinger
            else if grads fl then assert (is_cat k) KGradClass
            else Ok k in
  if given (tUnlabeled fl) then assert (is_cat k) (KWrap WTrans k) else Ok k.

(** growforest/growforest.go:405-516: target and targetf for a plain feature [k] *)
Definition choose_target (fl : tflags) (k : kind) : res (kind * kind) :=
  if tDensity fl then Ok (KDensity, k)
  else if is_num k then let* t := wrap_num fl k in Ok (t, t)
  else let* t := wrap_cat fl k in Ok (t, t).

(** What one tree calls: NewBestSplitAllocs(nSamples, targetf) (growforest/growforest.go:619),
    [target.(Feature).CopyInTo] with -vet (featurematrix.go:169-171; every tree has a
    node, whose call of BestSplitter is assumed here), and with boosting the assertion of
    growforest/growforest.go:683.  The result says whether Boost was called. *)
Definition one_tree (fl : tflags) (t tf : kind) : res bool :=
  if negb (is_feature tf) then Panic
  else if tVet fl && negb (is_feature t) then Panic
  else if boosts fl then (if is_boosting tf then Ok true else Panic)
  else Ok false.

(** The target and its first tree: the types, and whether Boost is called. *)
Definition first_tree (fl : tflags) (k : kind) : res (kind * bool) :=
  let* (t, tf) := choose_target fl k in
  let* b := one_tree fl t tf in
  Ok (t, b).

(** forrest.go:62-66: whether GrowRandomForest boosts *)
Definition forest_boosts (t : kind) : bool := is_boosting t.

(** growforest/growforest.go:524-527: whether the forest file starts with the intercept *)
Definition writes_intercept (t : kind) : bool := has_intercept t.

(** ** The report on test data *)

(** growforest/growforest.go:926-933 *)
Record report := mkReport {
  rFalses : list nat;      (* falsesbypred *)
  rPreds : list nat;       (* predtotals *)
  rTrueByTrue : list nat;  (* truebytrue *)
  rTrue : list nat;        (* truetotals *)
  rCorrect : nat; rNas : nat
}.
Definition incr (l : list nat) (i : nat) : res (list nat) := let* n := get l i in set l i (n + 1).

(** growforest/growforest.go:935-952, one case; [tally i] is bb.Tally(i) *)
Definition report_case (tally : nat -> res string) (i : nat) (s : catF * report) : res (catF * report) :=
  let '(f, r) := s in
  let* truei := cGeti f i in
  let* tot := incr (rTrue r) truei in
  let* pred := tally i in
  if (pred =? "NA")%string then
    Ok (f, mkReport (rFalses r) (rPreds r) (rTrueByTrue r) tot (rCorrect r) (rNas r + 1))
  else
    let (cm, predi) := CatToNum (cMap f) pred in
    let f := mkCat cm (cData f) (cMissing f) (cName f) (cRandom f) (cHas f) in
    let* pt := incr (rPreds r) predi in
    let* actual := cGetStr f i in
    if (pred =? actual)%string then
      let* bt := incr (rTrueByTrue r) truei in
      Ok (f, mkReport (rFalses r) pt bt tot (rCorrect r + 1) (rNas r))
    else
      let* fp := incr (rFalses r) predi in
      Ok (f, mkReport fp pt (rTrueByTrue r) tot (rCorrect r) (rNas r)).
(** growforest/growforest.go:925-952; only for a target with categories *)
Definition test_report (f : catF) (tally : nat -> res string) : res (catF * report) :=
  let z := repeat 0 (NCats (cMap f)) in
  for_up (cLength f) 0 (report_case tally) (f, mkReport z z z z 0 0).

(** ** applyforest *)
Section Apply.
  Variable N : arith.
  Local Notation zero := (nofZ N 0).
  Variable ParseFloat : string -> option N.
  (** utils.go Expit *)
  Variable Expit : N -> N.

  Inductive box := BSum (b : sumBox N) | BNum (b : numBox N) | BCat (b : catBox N).

  (** applyforest/applyforest.go:57-67 *)
  Definition apply_box (sum num cat : bool) (target : string) (size : nat) : box :=
    if sum then BSum (NewSumBallotBox N size)
    else if negb cat && (num || has_prefix (B "N") (B target)) then BNum (NewNumBallotBox N size)
    else BCat (NewCatBallotBox N size).

  Definition box_vote (bb : box) (casei : nat) (pred : string) (weight : N) : res box :=
    match bb with
    | BSum b => let* b := sumVote N ParseFloat b casei pred weight in Ok (BSum b)
    | BNum b => let* b := numVote N ParseFloat b casei pred weight in Ok (BNum b)
    | BCat b => let* b := catVote N b casei pred weight in Ok (BCat b)
    end.
  (** applyforest/applyforest.go:69-71: the votes of the trees, in order *)
  Definition box_votes (bb : box) (votes : list (nat * string * N)) : res box :=
    foreach votes (fun '((casei, pred, weight) : nat * string * N) bb => box_vote bb casei pred weight) bb.

  (** [x != 0.0] *)
  Definition not_zero (x : N) : bool := negb (nleb N x zero && nleb N zero x).

  (** A printed prediction: fmt.Sprintf of a number, or a string *)
  Inductive printed := PNum (x : N) | PStr (s : string).

  (** bb.Tally(i): numballotbox.go:42-50, sumballotbox.go:55-61, catballotbox.go:54-75;
      [iter] is the iteration order of the ballot of the case *)
  Definition box_tally (bb : box) (i : nat) (iter : ballot N) : res printed :=
    match bb with
    | BSum b => let* v := sumTally N b i in Ok (match v with Some x => PNum x | None => PStr "NA" end)
    | BNum b => let* v := numTally N b i in Ok (match v with Some x => PNum x | None => PStr "NA" end)
    | BCat b => let* _ := get (cbBox b) i in let* s := catTally N b iter in Ok (PStr s)
    end.

  (** applyforest/applyforest.go:87-105: the prediction written for case [i] *)
  Definition apply_result (sum expit : bool) (intercept : N) (bb : box) (i : nat) (iter : ballot N) : res printed :=
    if sum || not_zero intercept then
      let* x := (if sum then match bb with BSum b => sumTallyNum N b i | _ => Panic end
                 else match bb with BNum b => numTallyNum N b i | _ => Panic end) in
      let x := nadd N x intercept in
      Ok (PNum (if expit then Expit x else x))
    else box_tally bb i iter.

  (** sumballotbox.go:75-79 TallyError *)
  Definition sumTallyError (bb : sumBox N) (data : list N) (miss : list bool) : N := nofZ N 1.

  (** applyforest/applyforest.go:111-135: the columns of the votes file, one row of totals per
      case; reading an absent entry of the map gives 0 *)
  Definition vote_totals (bb : box) : res (list string * list (list N)) :=
    match bb with
    | BCat b =>
        let cats := cmBack (cbMap b) in
        Ok (cats, map (fun m => map (fun j => match bfind N j m with Some v => v | None => zero end)
                                    (seq 0 (length cats))) (cbBox b))
    | _ => Panic
    end.

  (** growforest/growforest.go:393-403, 908-914: the box for test and out of bag cases; [ncats]
      is the number of categories of the target before boosting *)
  Definition test_box (ncats size : nat) : box :=
    if ncats =? 0 then BNum (NewNumBallotBox N size) else BCat (NewCatBallotBox N size).
End Apply.
Arguments BSum {N}. Arguments BNum {N}. Arguments BCat {N}. Arguments PNum {N}. Arguments PStr {N}.

(** ** The allocations and the out of bag cases of a tree *)

(** splitallocations.go:38-76 NewBestSplitAllocs: what the model of the search keeps of it.
    [tg] is the target's scratch space, [draw] the state of its random source. *)
Definition new_allocs {St : Type} (nTotalCases : nat) (tg : St) (draw : nat) : allocs St :=
  mkAl (repeat f0 nTotalCases) (repeat 0%Z nTotalCases) tg draw.

(** growforest/growforest.go:651-662 *)
Definition oob_cases (nCases : nat) (cases : list nat) : res (list nat) :=
  let* ib := foreach cases (fun v ib => set ib v true) (repeat false nCases) in
  let* (_, oob) := foreach ib (fun v '((i, oob) : nat * list nat) =>
    Ok (S i, if v then oob else oob ++ [i])) (0, []) in
  Ok oob.
