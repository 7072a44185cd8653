# Formal model of CloudForest: design

The list of properties is `properties.jsonl` (C01 ...).  The model, the
specifications and the proofs are Coq 8.16.1 files under `rocq/theories`
(logical root `Verif`); `MANIFEST.json` maps each property to the theorems that
settle it, with a note wherever the claim is false of the code or only partly
proved.  `seeded/LOG.jsonl` records the wrong programs the theorems were tested
against.

## 1. How the code is modelled

* **Go integers** used as indices, counts and case numbers are `nat`, or `Z`
  where a negative value can occur.  64 bit overflow of `int` is not modelled,
  except for shifts of category bitmasks where `1<<j` matters.
* **float64** is `SpecFloat.spec_float` of the standard library with
  `prec = 53`, `emax = 1024`: the bit exact IEEE-754 binary64 operations as
  executable Gallina functions, no axioms (`F64.v`).  NaN payloads are not
  distinguished.  Go compilers may fuse `x*y+z` on some architectures; the
  model never fuses.  Comparisons, search loops and sorting are proved at this
  level, NaN and signed zeros included.
* **Algebraic claims** (Gini = 1 - sum p^2, mean, variance, weighted means,
  boosting accounts) are not exactly true of rounded arithmetic.  The functions
  concerned are written once, polymorphic in a record `arith` of arithmetic
  operations, and used at two instances: `F64` (the code) and `XR` (`Exact.v`:
  real numbers plus one value for 0/0).  Theorems of the second kind say so in their
  statement (`XR`).  `XQ` (`Rational.v`) is the same over the rationals; it computes, and
  is used for counterexamples without rounding.
* **Slices** are lists; a sub-slice that aliases its parent is a window
  (offset, length) into the parent's list and writes through it.  Reading or
  writing outside of a slice is the explicit result `Panic`.
* **Pointers** matter in two places and are addresses there: the maps and backing
  arrays shared by copies of features (`ModelAlias.v`) and the nodes of a jungle,
  which can have several parents (`ModelJungle.v`).  Elsewhere trees are values.
* **Loops** become structural recursion, or a `loop` combinator with fuel;
  running out of fuel is the explicit result `Spin`.  A theorem about such a
  function shows that the result is `Ok`, so neither `Panic` nor `Spin` can
  hide a failure.
* **Random numbers** are an oracle: a function from the draw index to a
  natural number reduced into the range asked for; theorems quantify over all
  oracles.  `Intn(0)` is `Panic` as in Go.
* **Map iteration order** is an arbitrary permutation of the keys.
* **Goroutines** are interleavings of atomic steps; a critical section of a
  mutex is proved equivalent to one step (`Conc.v`), unprotected code is split into
  its reads and writes.  Weak memory effects are not modelled (sequentially
  consistent interleavings only).
* **strconv / fmt** (`ParseFloat`, `%v` of floats) and **math** (`Log`, `Exp`,
  `Sqrt`, `Pow`, `Lgamma`) are section variables: theorems quantify over them,
  with the property that is needed (a round trip, say) as an explicit hypothesis.
  Where a theorem in exact arithmetic uses ln or exp, it is the function of the
  standard library.

### Files

| files | content |
|-------|---------|
| `Go.v`, `GoLemmas.v`, `F64.v`, `F64Order.v`, `F64Round.v`, `Exact.v`, `Rational.v`, `Conc.v` | vocabulary: results, loops, slices; float64 and its order and rounding; exact arithmetic; goroutines with mutexes |
| `Model*.v` | definitions only, each with the lines of /repo it models and its simplifications |
| `*Spec.v`, first part of `Prop*.v` | small specifications that do not use the helpers of the model |
| `*Proofs.v`, `CatSearchProofs.v`, `TotalSearch.v`, `Dependable.v` | invariants and lemmas |
| `Prop*.v` | the theorems of the list, named `Cnn_...`, `Print Assumptions` for each, and concrete examples meeting the hypotheses |

A theorem named `..._partial` proves part of the claim (the note in
`MANIFEST.json` says what is missing); `..._refuted` shows that the claim
as stated is false of the code.

## 2. What is modelled

Definitions cite lines; the table names the files of /repo and the part of each that
is covered.

| Go | model | covered |
|----|-------|---------|
| sortby/sortby.go | ModelSort.v | all but swapRange (unused) |
| catmap.go, densecatfeature.go, densenumfeature.go (data operations) | ModelFeature.v, ModelAlias.v | all operations (Mode of numbers in ModelTargets3.v); logging left out |
| splitter.go, Split, SplitPoints, DecodeSplit, GoesLeft | ModelSplit.v, ModelFeature.v | all |
| sampeling.go, Shuffle, ShuffleCases | ModelSample.v | all |
| BestSplit, BestNumSplit, BestCatSplit, BestCatSplitIter(Big), BestCatSplitBig, BestBinSplit | ModelSearch.v | all, over an abstract target |
| Impurity, SplitImpurity, UpdateSImpFromAllocs, FindPredicted of the targets | ModelImpurity.v, ModelTargets.v | Gini, entropy, disutility entropy, regret, Neyman-Pearson, weighted, adaptive and cost boosting, numerical, gradient boosting, Hellinger split impurity |
| l1target.go, ordinaltarget.go, densitytarget.go, transduction.go, numadaboostingtarget.go, hdistancetarget.go | ModelTargets2.v, ModelTargets3.v | impurities, predictions before formatting, Boost; the transduction split impurity over an arbitrary supervised one |
| gradboosttarget.go, gradboostclasstarget.go, adaboosttarget.go, adacosttarget.go (Boost) | ModelBoost.v | residuals, scores, weights |
| forrest.go | ModelForest.v | GrowRandomForest for a gradient boosting target and for its two-class form; its contrast target is the plain numerical copy. Other files that grow with a gradient boosting target and -vet (C129, C132, C133) score the contrast as the target itself |
| node.go, tree.go | ModelTree.v, ModelGrow.v, ModelJungle.v | Climb, Recurse, CodedRecurse, AddNode, StripCodes, Grow, GrowJungle (new root; used root in ModelJungleUsed.v), GetLeaves, Partition, Vote, VoteCases |
| featurematrix.go | ModelGrow.v, ModelMatrix.v, ModelQuoted.v | BestSplitter, parsing (with quoted fields in ModelQuoted.v), writing, encodings, contrasts, StripStrings, LoadCases |
| catballotbox.go, numballotbox.go, sumballotbox.go, utils.go | ModelBallot.v | voting, tallying, errors, RunningMean, SparseCounter; each also as its single accesses |
| forestwriter.go, forestreader.go | ModelText.v, ModelFile.v , ModelJungleFile.v | all, on byte strings |
| libsvm.go | ModelMatrix.v, ModelExport.v | ParseLibSVM, WriteLibSvm, WriteLibSvmCases |
| arff.go | ModelExport.v | ParseARFF, WriteArffCases (files ended by newlines; encoding/csv as modelled there) |
| utils/toafm/main.go | ModelExport.v | everything after loading; the blacklist reader in ModelList.v (`list_ids`); flags and files are not modelled |
| sklearn_tree.go | ModelTree.v | all |
| stats/stats.go | ModelStats.v | all, math library functions abstract |
| utils/nfold/main.go | ModelFold.v, ModelNfold.v, ModelList.v | selection of features, assignment to folds, -onehot step; libsvm writing with shared flags in ModelExport.v (`nfold_libsvm` itself ignores the sharing and is used only for the lost target); the loop that writes the files of every fold, with the matrix as state; not: flags, names of files, sharing between the matrix and its encoding when some feature has categories |
| growforest/growforest.go | ModelWorkers.v, ModelSample.v | the worker goroutines that grow a forest, sampling without replacement; in ModelCommands.v candidate selection, mTry/leafSize/nSamples, ACE, choice of target, report on test data; in ModelCommands2.v preparing the data, out of bag votes, -caseoob, importance rows and the cases of each tree; in ModelList.v the list of -blacklist from its bytes |
| applyforest/applyforest.go | ModelCommands.v, ModelCommands2.v, ModelApply.v, ModelMain.v | boxes, votes, predictions, vote totals, the error printed; the files of -preds and -votes as bytes; the command from its two input files |
| leafcount/leafcount.go | ModelWorkers.v, ModelTree.v, ModelSplits.v | counting, goroutines and the record of splits; not the JSON text |

Not modelled anywhere: flag parsing, logging, closing files, compression (an archive is given as its entries),
`log.Fatal` paths of the commands; non-ASCII white space in
input files; the Python wrappers; integer overflow.  Functions of /repo that no definition cites (constructors and getters
that only pack or read fields among them):

* `catballotbox.go`: NewCatBallot
* `densecatfeature.go`: GetName, FindPredicted
* `densenumfeature.go`: Less, NCats, GetName, Predicted
* `densitytarget.go`: GetName, NCats
* `entropytarget.go`: NewEntropyTarget
* `featurematrix.go`: OneHot
* `forestreader.go`: NewForestReader
* `forestwriter.go`: NewForestWriter
* `hdistancetarget.go`: NewHDistanceTarget
* `ordinaltarget.go`: Predicted, FindPredicted
* `sortablefeature.go`: Sort, Len, Less, Swap
* `tree.go`: NewTree
* `sortby/sortby.go`: swapRange, min
* `stats/stats.go`: lgamma
* `utils/nfold/main.go`: openfiles

## 3. Plan per property

| id | what is modelled | how it is proved |
|----|------------------|------------------|
| C01, C02 | sortby.go function by function over float64 | every step is a swap inside the range (permutation), partition/heap/insertion invariants give order; loop measures give totality |
| C03, C04 | the three Split loops, SplitPoints, GoesLeft, DecodeSplit, Splitter.Split | loop invariant `L ++ M ++ U ++ R`; decoded sets compared bit by bit |
| C05, C06 | CatMap as a pair (map, slice); Copy as shared map and own slice | invariant over histories; counterexample for copies |
| C07-C10 | DenseCatFeature/DenseNumFeature as records, Append/Put/PutStr/PutMissing/Copy/Impute | invariant over operation sequences; refutations for PutStr and numerical Copy |
| C11-C16 | Shuffle, ShuffleCases, SampleFirstN, SampleWithReplacment, the balanced samplers over oracles | permutation invariants, Fisher-Yates injectivity, refutation for empty classes |
| C17, C18 | Node.Recurse on windows of one array, GetLeaves, Partition, Vote, VoteCases | refinement to following one case at a time |
| C19-C22, C24, C27, C28 | ballot boxes and RunningMean polymorphic in `arith` | sums over histories; refutations at float64 |
| C22, C23, C25 | interleaving semantics of votes and counter additions | linearisation of atomic steps; racy schedule as refutation |
| C26 | leafcount counting loops over GetLeaves | counting lemma |
| C29, C30 | BestNumSplit over a target record | loop invariant (argmax); midpoint facts over binary64; refutations |
| C31-C33 | BestCatSplit, BestCatSplitIter(+Big), BestBinSplit | enumeration covers each subset up to complement; fixpoint invariant |
| C34 | BestSplit missing correction in exact arithmetic | field identity |
| C35-C38 | BestSplitter over an oracle of per feature outcomes | loop invariant on the candidate array |
| C39-C42, C78, C79 | Grow/CodedRecurse | induction on the recursion; refutations for stale children and for rounding midpoints |
| C43-C49 | impurity functions, exact and at float64 | inequalities (convexity), count invariants |
| C50, C51, C80, C81 | gradient boosting, two class and adaptive boosting | invariant over rounds, exact arithmetic |
| C52-C54, C72, C82 | writer and reader of .sf on byte strings, AddNode | round trip by induction on trees; refutations by computation and for all files |
| C55, C56, C83 | WriteCases, ParseAFM, LoadCases on byte strings | round trip |
| C57-C60, C86 | EncodeToNum, OneHot, contrasts, StripStrings | direct, invariant of the name table |
| C61 | BuildScikitTree | decoder is a left inverse |
| C62, C84, C85 | ParseLibSVM on lines | rectangularity invariant; refutations |
| C63 | nfold index arithmetic | counting |
| C64-C67, C87 | growforest workers and leafcount channels as transition systems | invariants and progress; refutations as schedules |
| C68, C71, C75 | Climb, importance, branch counts of leafcount | induction; refutations |
| C69, C88 | sample statistics, t test | exact arithmetic; refutations at float64; the fifty steps of the continued fraction are compared with the hypergeometric series by its contiguous relations (GaussProofs.v, PropStats2.v; spec StatsSpec.v) |
| C70 | Span | all finite data at float64 |
| C74 | sampling without replacement in growforest | counting |
| C76 | GradBoost's Friedman score | exact arithmetic |
| C77 | BestCatSplitBig over an oracle | loop invariant (argmax over the drawn sets) |
| C73, C89 | GrowJungle on a heap of nodes | invariant: every position of the case array is in one leaf, one merged node or one dropped window; refutations by computed runs |
| C90 | growing with a target that scores every split 0/0 or x/0 (BlindProofs.v) | the search keeps its start values, whatever the data; exact formula for categorical features |
| C91 | the density term of transduction | induction over the features |
| C92–C95 | l1, ordinal, numerical boosting and Hellinger targets | exact arithmetic; refutations by general statements where possible, else by one data set |
| C96, C97 | set-up of growforest and the ACE loop (ModelCommands.v) | invariants of the marking loops and of the loop over forests; importances abstract |
| C98, C101 | the types of targets as a small language of wrappers | case analysis over all flags; vetting over the model of BestSplitter |
| C99 | report on test data | invariant of the loop over cases, for columns read from a file |
| C100 | applyforest's boxes | reduction to C20 and C21 |
| C102 | arff text, encoding/csv and bufio as byte functions (ModelExport.v) | lemma per line: what is written is recognised and split into the same fields |
| C103, C104 | libsvm writing | columns specified without the code (`exported`); writing and reading meet in `svm_read_back` |
| C105 | a heap of flag slices shared by columns | fixed point of the loop after the first column |
| C106 | toafm as a function of the loaded matrix | invariant of the blacklist loop, then C55, C60, C103 |
| C107 | Expit and Logit with tanh and log as parameters | identities of the reals; float64 saturation by evaluation |
| C108 | state of the two-class boosting target after any rounds | derivatives of the log likelihood given separately; invariant `holds` |
| C109 | AdaCostTarget.Boost over the loop of C96 | sums over a partition into misses and hits |
| C110 | TransTarget's split impurity over the generic SplitImpurity | linearity of the weighted average; density specified separately |
| C111 | NewNPTarget, NewTransTarget, dentropy FindPredicted with the category map they change | C05's lemmas on CatToNum; a fold invariant for the blind impurity |
| C112 | Neyman-Pearson scan split into the scan of the prediction and two totals | C49's scan lemmas over the reals |
| C113 | map[float64]int as a list of entries read in any order | invariant `tallied` of the counting loop |
| C114 | oob_votes: the trees one after the other, each voting on the cases outside its sample | induction over the trees with C18's vote list; C19/C20 for the tallies |
| C115 | prepare: impute, permutate, shuffleRE | C11's shuffle as a permutation, invariant over the feature loop |
| C116 | note_depths, importance_rows | running means (C71) as an invariant over trees |
| C117 | NumMean, NumError, NumImpurity, Gini, SampleWithReplacment | square-shift identity over the reals; C43, C44 for the refutations |
| C118 | LoadAFM with a file as nothing, bytes or an archive | C55, C102 round trips through the dispatch; one-column files panic |
| C119 | BestSplit with grad_target, hdist_target | C76's value of GBImpurity and C40's search; the missing branch is charged separately |
| C120 | apply_error: numTallyError, catTallyError, sumTallyError | loop invariants for mean and variance; C20, C28 for votes and squared error; 0/0 stays not a number |
| C121 | SetCosts, get_costs, the targets with costs | the cost look-up composed with renaming of categories; sums by label permuted |
| C122 | tree_cases, bSampler, nSamples_of | C11–C16 and C74 for the samplers; endless loop shown for every fuel |
| C123 | vet_split, cShuffleCases, nShuffleCases, cCopyInTo | C12's frame of shuffleCases; counts are invariant under permutation of labels, so the float impurity is equal |
| C124 | tree_notes, splits_start on the interleaving machine | induction over the tree for the notes; one thread runs in order; invariant bounding every list and register by what was stored |
| C125 | cFilterMissing, nFilterMissing, filter_in_place | induction over the cases; the array is kept, gap, rest |
| C126 | tsv_records, qParseAFM (whole encoding/csv), related to ParseAFM | the automaton on lines without quotes splits at tabs; C102's scan of written records; so C55 and C56 carry over |
| C127 | splSplit, Recurse, VoteCases, ParseAFM, WriteCases | simulation of the two traversals along a correspondence of cases; C55 for files |
| C128 | VoteCases with and without codes, Grow, WriteForest, ReadForest | C04 at every node; induction over the traversal; C42 and C52 |
| C129 | Grow, BestSplitter, all searches, ShuffleCases, all targets | simulation of the whole growing along a renaming of the cases (RowsProofs), the renaming being the position in the sample; only candidates are ever split on |
| C130 | SortBy, BestNumSplit, BestSplit, BestSplitter, Grow | simulation of the two runs (OrderProofs, OrderSearch, OrderGrow): equal comparisons sort alike, midpoints separate alike, so every node cuts its cases alike |
| C131 | Grow, BestSplitter, all searches, SortBy, CountPerCat, MoveCountsRtoL, SumAndSumSquares, Split | loops whose steps can be swapped (OrderlessTargets); two sorted arrangements agree at every gap, partitions are filters up to order (OrderlessSearch); simulation of the two runs with permuted lists (OrderlessGrow) |
| C132 | Grow, BestSplitter, all searches, Gini, entropy, WRF, squared error and gradient targets, FindPredicted, Mean | simulation of two targets whose impurities move in step (Lockstep), instantiated for renumbered classes, equal weights and shifted values (LockstepTargets); counterexamples in float64 |
| C133 | Grow, BestSplitter, all searches, the counting, summing and Hellinger targets, CopyInTo, ShuffleCases, the loop over trees of growforest | simulation of two runs whose scratch memory has the same sizes and whatever contents (Lockstep, Leftover): every search writes before it reads; C41 for the old nodes; induction over the trees of a goroutine; counterexample for the order of the candidates |
| C134 | GrowJungle, Recurse and VoteCases on nodes in a heap | an invariant on the pointers (JungleShape): entries of a level have disjoint windows, children lie strictly inside the window of their parent, so a node that took in another one is never taken in itself; pointers go to later addresses; the tree one sees from the root is well formed, and C18 gives the votes; counterexample for the Missing branch |
| C135 | GrowJungle on a used root, VoteCases on nodes in a heap | simulation of the run on a new tree and the run on a used one, whose new nodes are at addresses that are shifted (JungleUsed); unfolding is invariant under the shift; the leaf case gives the refutation |
| C136 | WriteForest, WriteTree, WriteNodeAndChildren on nodes in a heap | writing the heap is writing its unfolding (fuel induction); the unfolding of a grown jungle decodes (JungleShape), so C52 and C128 apply |
| C137 | GrowRandomForest for a gradient boosting target: Grow, Partition, Boost, repeated | the leaf of a case predicts the mean of the residuals of the sampled cases there (C117 style), an even sample gives the mean over all cases, so one round is an orthogonal step (FitSpec); sum of squares by regrouping over leaves; induction on trees; counterexample for sampling with replacement |
| C138 | NewGradBoostClassTarget, GrowRandomForest for it: Grow, Partition, Boost, repeated | as C137 with the leaf value of C108 (a Newton step); one case: exp u < 1 + u + u^2 bounds the change of its log likelihood from below; sum over a leaf is l(1-l) times a square over a variance; induction on trees; counterexamples for sampling with replacement and for every learning rate |
| C139 | applyforest.go from matrix and forest to both files | votes of a forest per case from C18; the box from C31's invariants; rows of a file by induction; refuted for categories no tree says |
| C140 | ReadForest called repeatedly on one reader | as C52 with text behind the forest; induction over the forests; both failures as theorems for all forests |
| C141 | rounds of AdaBoost (adaboosttarget.go) and the categorical ballot box | the weight of a case after all rounds is the exponential of its margin over the product of the normalisers; a misvoted case has margin at least zero; induction over rounds from the back; refuted for bagged trees |
| C142 | applyforest.go from both input files to both output files (ModelMain.v) | C52 for the file, the traversal of coded and codeless trees in step (as C128), pointers followed with fuel = height; grown trees by C128; refuted for Missing branches |
| C143 | utils/nfold/main.go after loading (ModelNfold.v) | selection by filter (as C106), folds by C63, each file by C55; loop invariant over the folds; the state of the matrix across folds is explicit, which gives the refutation for -writeall |
| C144 | csv.Reader on the list and what follows (ModelList.v, over tsv_records of ModelQuoted.v) | split by tabs and newlines as in C127, induction over the records with the number of fields carried along; composed with C96 and the filter lemma of C143; refutations by induction up to the offending line |
| C145 | BestSplitter, Grow, GrowJungle, the loop of a goroutine, splitter.go:31 | invariant that the candidates are permuted only, so every get of a column is one of a candidate: equality of the runs on both matrices by bind_ext and loop_ext; selection by C144; refuted for data without a column |
| C146 | ParseRfAcePredictorLine and the splitter part of ReadTree (ModelFile.v) | splitting commutes with trimming the texts between the commas (split_trimmed), so padding does not count; induction over the entries with the list of open texts; lookup in the reversed list for distinct keys; refutations by the same lemmas |
| C147 | BestSplitter, Grow, GrowJungle, Splitter.Split, CatBallotBox, Append | simulation (bind_sim, loop_sim of C129) with the renaming as the map between the runs: the search sees numbers only, names enter through DecodeSplit and FindPredicted; lookups by injectivity |
| C148 | Grow, BestSplitter, the leafSize tests of the searches | induction over the relation grown of GrownSpec.v: both branches get leafSize cases, the three branches share the cases (three_ways) |
| C149 | WriteNodeAndChildren, WriteForest, Grow | writes_lines of C52 gives the lines as the paths of as_filed; counting newlines of clean fields; induction along the right branches; sizes by C148 |
| C150 | Grow, SplitPoints, Split, Recurse, VoteCases | without a missing value the loop of SplitPoints keeps its counter at lastleft + 1, so both ends meet (nothing_between); simulation of the runs with dress as the map between trees; induction over the tree for Recurse |
| C151 | BestSplitter with its loop, Grow, GrowJungle | loop invariant nDrawnConstants + lastSample = j, nDrawnConstants <= nConstants and the number of candidates unchanged (`counted`); both runs side by side until j = mTry; `loop_ext` for equality including panics; induction over the fuel of Grow with the number of candidates kept |
| C152 | Grow, BestSplitter | every call made while the tree grows (`invoked` of C79) has at most n - depth * leafSize cases; induction over the fuel: the condition at each node has the same value for both limits |
| C153 | Grow, worker of a goroutine, GrowJungle | strip the records from the state; run by run simulation over the fuel, the jobs and the levels; `book` cannot panic on candidates with a place (BestSplitter_cans) |

Every property of the list is expressible in the model; none is left out.

## 4. Trusted base

* Coq 8.16.1's kernel, and `vm_compute` (used in examples and in refutations by
  computed runs).
* The fidelity of the hand written model to the Go text; every
  definition cites its lines.  The Go code was read, never run.
* The standard library's axioms listed below, nothing else: the development
  declares no axiom, parameter or section-less variable.  The axioms come from the
  reals of the standard library (`ClassicalDedekindReals.sig_forall_dec`,
  `sig_not_dec`, `FunctionalExtensionality.functional_extensionality_dep`,
  `Classical_Prop.classic`).  `ClassicalDedekindReals`, `Rdefinitions` and
  `ssrunder` contain further module parameters that are not used as axioms by any theorem
  here.

`Print Assumptions` for each theorem of the list:

**No axioms (closed under the global context)** (422 theorems):
* C01: sortby_sorts_and_keeps_pairs
* C02: sortby_total_and_frame
* C03: split_is_three_way_partition
* C04: coded_and_decoded_splits_agree
* C05: catmap_bijection, number_stable
* C06: copy_keeps_original_partial, copy_shares_map_refuted, original_overwrites_copy_refuted, as_values, read_as_values
* C07: flag_sound_categorical, flag_sound_numerical_partial, numerical_copy_refuted, copyInTo_refuted
* C08: append_token, append_nontoken, putStr_refuted, numerical, put_missing, numerical_nan_refuted
* C09: append_read_back
* C10: impute_categorical, impute_numerical, all_missing_refuted
* C11: shuffle_is_permutation, shuffle_uniform
* C12: shuffleCases_frame, shuffleCases_uniform, shuffleCases_multiset
* C13: sampleFirstN, sampleFirstN_uniform
* C14: sampleWithReplacment, bag, oob_complement, bag_terminates
* C15: balanced, secondary, secondary_blocks, secondary_total
* C16: secondary_can_panic_refuted
* C17: leaves_partition_the_cases, no_leaf_iff_missing
* C18: each_case_votes_once, order_of_cases_irrelevant, vote_covers_all_cases
* C19: cat_plurality, cat_totals, NA_iff
* C21: sum
* C22: num_linearizable, sum_linearizable, no_deadlock
* C23: concurrent_cat_votes_refuted
* C24: leading_zero_refuted
* C25: sparse_counts
* C26: leaf_cooccurrence, symmetric_with_reach_on_diagonal
* C28: unvoted_cases_count_refuted
* C29: exhaustive_partial, exhaustive_refuted
* C30: applied_is_evaluated_partial, near_ties_refuted, rounding_refuted, overflow_refuted
* C31: exhaustive_categories_optimal
* C32: greedy_local_optimum, greedy_local_optimum_big
* C33: binary_split
* C34: near_ties_refuted
* C35: candidates_rearranged
* C36: no_panic_partial, no_panic_refuted
* C37: best_of_evaluated, oob_refuted
* C38: constant_stays_constant, random_refuted
* C39: limits_respected
* C40: growing_ends_partial, endless_refuted
* C41: same_up_to_stale_nodes_partial, regrown_tree_does_not_vote_refuted
* C42: leaves_predict_their_cases
* C45: counting_targets, gini_float64, hellinger
* C49: plain_majority, weighted_majority, regret_majority, neyman_pearson_majority, transduction_majority, boosting_majority, missing_ignored_refuted, transduction_comment_refuted
* C50: residuals
* C51: perfect_tree_refuted
* C52: what_files_keep, forest_files_round_trip
* C53: right_branch_takes_over, writer_panics_without_right_branch, missing_branches_lost_refuted
* C54: delimiters_refuted, plain_categories_survive_partial
* C55: matrix_files_round_trip, read_write_read, encoded_matrix_refuted
* C56: orientation_agrees
* C57: column_per_category, exactly_one, few_categories
* C58: more_than_two_categories_partial, small_features_vanish_refuted
* C59: contrasts_named, all_contrasts_named, encoded_names, clashing_names_refuted, parsed_names
* C60: data_kept_partial, categories_misnumbered_refuted, inconsistent_refuted
* C61: scikit_layout_is_the_tree, child_indices
* C62: libsvm_matrix
* C63: unstratified_folds, stratified_folds, train_test, no_folds_panics
* C64: every_schedule_grows_all, no_cores
* C65: tree_lost_refuted, few_trees_partial
* C66: lost_worker_blocks_main_refuted, deadlock_or_crash_refuted, it_happens_refuted, one_core_partial
* C67: each_file_once, no_workers_blocks
* C68: climb_visits_each_node_once, strip_codes
* C70: always_zero_refuted, span_of_two_refuted, constant_partial
* C71: depth_partial, depth_refuted
* C72: paths_address_nodes, existing_nodes_are_kept
* C73: every_case_accounted_for, partition_without_merges_partial, leaves_predict_their_cases, merged_cases_lost_refuted, merge_happens_refuted
* C74: default_uses_all_partial, other_sizes_partial, all_cases_asked, cases_lost_refuted
* C75: branch_counts
* C77: random_categories_best_drawn, random_categories_best_drawn_big
* C78: leaf_without_prediction_refuted
* C79: skipped_features_are_constant
* C80: missing_forgotten_refuted, class_labels_invented_refuted, present_labels_kept_partial
* C81: scores_and_residuals
* C82: outside_node_error_lost_refuted, unreadable_weight_refuted, cut_file_no_error_refuted
* C83: lines_dropped_refuted
* C84: last_line_lost_refuted
* C85: target_overwritten_refuted, malformed_panics_refuted
* C86: onehot_discarded_refuted, still_categorical_refuted
* C87: numbered_with_progress_partial, all_trees_zero_refuted
* C88: unused_feature_refuted, negative_variance_refuted
* C89: skipped_feature_is_constant_refuted
* C90: never_splits_refuted, infinite_density_refuted, one_leaf_refuted
* C91: numbers_ignored_refuted
* C92: all_missing_refuted
* C95: absent_class_refuted, one_class_refuted
* C96: candidates, feature_count_partial, listed_target_refuted, mtry_positive, leaf_size_partial, leaf_size_default, leaf_size_zero_refuted, zero_leaves_panic_refuted
* C97: selection, all_recorded, negative_cutoff_refuted, single_forest_refuted
* C98: gradient_boosting_partial, boosting_panics_refuted, adaboost_refuted, adacosts_refuted, library_refuted, intercept
* C99: report_with_missing, report_partial, missing_refuted, unseen_category_refuted
* C100: sum_partial, categorical_intercept_refuted, votes_file_refuted
* C101: contrast_kind_refuted, entropy_vet_refuted, density_vet_refuted, out_of_bag_cases, sample_fits_partial, vet_oob_panics_refuted
* C102: arff_round_trip_partial, labels_refuted, comment_refuted, blank_in_name_refuted, no_type_refuted, integer_refuted, no_data_refuted
* C103: columns_exist, libsvm_round_trip_partial, trailing_columns_refuted, numerical_target_refuted, missing_target_refuted
* C104: cases_written_partial, matrix_changed_refuted, missing_target_refuted, no_categories_refuted
* C105: shared_flags_refuted, multiclass_target_refuted
* C106: matrix_rewritten, libsvm_target, anonymous, both_targets_refuted, nothing_left_refuted, names_clash_refuted
* C107: saturated_refuted
* C108: settled_leaf_refuted, nan_spreads_refuted, single_class_refuted
* C109: no_costs_refuted, unit_costs_impurity, unit_costs
* C111: known_label, unknown_label_refuted, unknown_label_blind_refuted, no_costs_refuted
* C112: split_may_increase_refuted
* C113: clear_winner, ties_refuted, nan_and_empty_refuted
* C114: unseen_trees_vote, classification, boosted_sum_refuted, caseoob_rows
* C115: shuffled_as_asked, imputed_then_shuffled, labels_invented_refuted
* C116: infinite_and_nan_refuted
* C117: unlabelled_cases_drawn_refuted
* C118: matrix_files_partial, arff_files_partial, libsvm_files_partial, zipped_arff_refuted, zipped_libsvm_refuted, empty_archive_refuted
* C119: lone_missing_float_refuted
* C120: other_kind_refuted, boosted_error_refuted, constant_target_float_refuted, absent_category_refuted
* C121: adacost_numbering_refuted
* C122: sampled_cases, all_known_cases, no_known_case_refuted, unbalanced_refuted, exponent_refuted
* C123: contrast_cat, contrast_num, gain_of_contrast_partial, every_arrangement, bagged_refuted, evaloob_refuted
* C124: splits_recorded_partial, nothing_invented, race_refuted, ambiguous_refuted
* C125: cat, num, in_place
* C126: without_quotes, reading_ends, quoted_fields, quoted_table, features_lost_refuted, renamed_refuted, header_refuted
* C127: votes_by_answers, votes_by_values, same_rows_same_votes, written_cases, absent_feature_refuted, wrong_kind_refuted
* C128: votes_without_codes, strip_codes, files_vote_as_grown, grown_trees, training_cases, same_names_refuted
* C129: classification, regression, gini, entropy, squared_error, gradient, sample_as_table, labels_of_others, values_of_others, flag_refuted, evaloob_refuted
* C130: same_tree_but_thresholds, close_values_refuted, other_cases_refuted, evaloob_refuted
* C131: same_tree, classification, hellinger, regression_refuted, vet_refuted, costs_and_weights, disutility_refuted
* C132: same_splits, same_prediction, renumbered_refuted, tie_refuted, shift_refuted
* C133: classification, hellinger, regression, worker, worker_regression, candidates_refuted
* C134: each_case_votes_once, votes_with_missing_values, empty_vote_refuted
* C135: used_tree, no_votes_refuted
* C136: writing_ends, files_vote_as_jungles, missing_branches_refuted
* C139: files, read_back, absent_category_refuted, unlabelled_refuted
* C140: read_one_by_one_partial, no_header_refuted, no_trees_refuted
* C142: file_as_forest_partial, grown_forest_partial, missing_branch_refuted
* C143: fold_files_partial, training_file_blind_partial, onehot_ignored_partial, write_all_refuted, impute_leak_refuted
* C144: lines_partial, quoted_partial, growforest_partial, nfold_partial, toafm_partial, ragged_refuted, ragged_commands_refuted, bare_quote_refuted
* C145: tree, jungle, goroutine, growforest_partial, use, applied, missing_column_refuted
* C146: line_partial, numerical_partial, categorical_partial, no_key_refuted, blank_line_refuted, equals_refuted, open_quote_refuted
* C147: tree, classification, regression, votes, jungle, grown_votes, tally, error, column
* C148: size, nodes, depth
* C149: lines_partial, doubled, grown_partial, one_line_per_node_refuted
* C150: tree, recurse, votes, filed, grown_votes
* C151: goes_on, adds_nothing, all_candidates, jungle
* C152: no_limit
* C153: tree, outcome, any_records, goroutine, jungle

**`ClassicalDedekindReals.sig_forall_dec`, `FunctionalExtensionality.functional_extensionality_dep`** (80 theorems):
* C20: num_weighted_mean, order_irrelevant
* C21: sum_exact
* C22: exact_tally_unique
* C24: later_zero_partial
* C27: balanced_error
* C28: squared_error_partial
* C34: missing_charged, missing_charged_regression, missing_charged_gini
* C43: gini_is_one_minus_squared_shares, gini_range_purity_order, split_never_increases_gini
* C44: squared_deviation_properties, split_never_exceeds_parent
* C45: gini_exact, numerical_exact, friedman_exact
* C48: regret_is_half_the_average_cost, regret_is_average_cost_refuted
* C49: transduction_without_weight
* C50: accounting
* C69: mean_and_variance, too_few
* C71: importance
* C76: friedman_score_is_error_reduction
* C88: exchanged_partial, direction_partial
* C90: categorical_partial
* C91: categorical_partial
* C92: absolute_deviation, split_at_most_doubles_partial, split_increases_refuted, prediction_not_best_refuted
* C93: most_frequent_class_partial, negative_class_refuted, split_increases_refuted
* C94: first_weights
* C95: score_partial, other_classes_refuted, prediction_partial, unknown_positive_refuted
* C100: intercept_without_sum_refuted, test_box_refuted
* C110: split_score, only_sizes_refuted, blind_to_the_cases_refuted
* C111: share_of_true
* C112: judges_its_prediction, split_score, mixture_tolerated_refuted
* C114: regression
* C116: rows_partial, root_features_refuted
* C117: leaf_predicts_the_mean, leaf_least_squares, missing_numbers_count_refuted, missing_labels_count_refuted
* C119: boosting_scores_partial, boosting_exhaustive_partial, lone_missing_refuted, hellinger_scores
* C120: relative_error_partial, intercept_refuted, constant_target_refuted
* C121: regret_by_name, weighted_gini_by_name, boosted_cost_by_name, misspelt_refuted
* C131: squared_error_exact, gradient_exact, disutility_exact, adaptive_boosting_exact, other_numbers_exact
* C132: renumbered_exact, equal_weights_exact, shifted_exact
* C137: error_account, fit_never_worse, bagging_refuted

**`ClassicalDedekindReals.sig_forall_dec`, `ClassicalDedekindReals.sig_not_dec`, `FunctionalExtensionality.functional_extensionality_dep`** (2 theorems):
* C88: equal_means_partial
* C95: not_hellinger_refuted

**`ClassicalDedekindReals.sig_forall_dec`, `ClassicalDedekindReals.sig_not_dec`, `Classical_Prop.classic`, `FunctionalExtensionality.functional_extensionality_dep`** (36 theorems):
* C34: missing_charged_entropy
* C46: values_of_both_computations, consistent_for_unit_costs_partial, consistent_refuted
* C47: entropy_value_range_purity, split_never_increases_entropy
* C51: weights_distribution, half_of_the_weight, useless_tree, history
* C73: exact_targets_partial
* C88: incomplete_beta_partial, p_value_partial, two_degrees_partial
* C94: new_weights_partial, bad_tree, useless_tree_refuted, perfect_tree_refuted
* C107: expit_is_logistic, logit_then_expit
* C108: newton_step, state_kept
* C109: weights_distribution, useless_tree, share_of_the_misses, equal_costs_refuted
* C121: entropy_by_name, numbering_does_not_matter
* C138: small_steps, likelihood_never_falls_partial, bagging_refuted, large_rate_refuted
* C141: training_error_partial, ballot_box_partial, exponential_partial, sampled_tree_refuted
