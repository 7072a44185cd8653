{"id": "C01", "title": "SortBy orders the values and keeps cases attached", "statement": "After SortBy(cases, vals) with NaN-free values the first len(cases) values are in ascending order and the list of (case, value) pairs is a rearrangement of the list of pairs before the call.", "quantifier": "every cases slice, every vals slice at least as long, every NaN-free content (including ties, -0, infinities), every length", "why_tests_cant": "The routine switches between quicksort, ninther pivots, heapsort and insertion sort depending on length and depth; a test fixes one length and one input order.", "anchors": ["sortby/sortby.go:SortBy", "sortby/sortby.go:quickSort", "sortby/sortby.go:doPivot", "sortby/sortby.go:heapSort", "sortby/sortby.go:insertionSort"]}
{"id": "C02", "title": "SortBy is total and only permutes", "statement": "SortBy terminates without indexing out of range for every input, NaN values included; the pairs are permuted and vals beyond len(cases) are untouched. If vals is shorter than cases it panics only by an index error, never by looping.", "quantifier": "every cases and vals slice with len(vals) >= len(cases), any float64 content including NaN", "why_tests_cant": "Termination of the nested partition loops and bounds safety with NaN comparisons concern every input.", "anchors": ["sortby/sortby.go:SortBy", "sortby/sortby.go:doPivot", "sortby/sortby.go:siftDown"]}
{"id": "C03", "title": "Splitting a case list is an exact three-way partition", "statement": "Split, SplitPoints (numerical and categorical) and Splitter.Split rearrange the case list in place so that it is left ++ missing ++ right, a permutation of the input with multiplicities; left holds exactly the non-missing cases that go left, right exactly the non-missing cases that do not, and the middle exactly the missing ones.", "quantifier": "every case list (duplicates allowed), every feature content and missing mask, every threshold (NaN included) and every category subset", "why_tests_cant": "The in-place loop re-examines swapped elements; correctness depends on every interleaving of left/missing/right cases.", "anchors": ["densenumfeature.go:DenseNumFeature.Split", "densenumfeature.go:DenseNumFeature.SplitPoints", "densecatfeature.go:DenseCatFeature.Split", "densecatfeature.go:DenseCatFeature.SplitPoints", "splitter.go:Splitter.Split"]}
{"id": "C04", "title": "SplitPoints, Split and the decoded Splitter agree", "statement": "On one feature, SplitPoints returns exactly the boundaries of the three slices Split returns, and the Splitter decoded from a coded split produces the same three lists as the coded split; so replacing coded splits by splitters (StripCodes) cannot change the routing of a case.", "quantifier": "every case list, every feature whose category table is consistent, every coded split (int bitmask with at most 63 categories, big-integer bitmask for any number)", "why_tests_cant": "The two representations are used on different paths (growth vs. files); equality must hold for every bit pattern and every category table.", "anchors": ["densenumfeature.go:DenseNumFeature.DecodeSplit", "densecatfeature.go:DenseCatFeature.DecodeSplit", "densecatfeature.go:DenseCatFeature.GoesLeft", "splitter.go:Splitter.Split", "tree.go:Tree.StripCodes"]}
{"id": "C05", "title": "Category numbering is a stable bijection", "statement": "After any sequence of lookups, category names and numbers are in one to one correspondence: the number of a name never changes, NumToCat(CatToNum(v)) = v, numbers are dense 0..NCats-1, and NCats grows by one exactly when a new name is seen.", "quantifier": "every finite history of CatToNum calls from an empty map", "why_tests_cant": "A statement about all histories.", "anchors": ["catmap.go:CatMap.CatToNum", "catmap.go:CatMap.NumToCat", "catmap.go:CatMap.NCats"]}
{"id": "C06", "title": "Copies of a categorical feature are independent", "statement": "Operations on a Copy of a categorical feature do not change what the original feature answers (names, numbers, values).", "quantifier": "every feature and every sequence of operations on its copy", "why_tests_cant": "Aliasing of the shared name table shows only when the copy sees a category the original never had.", "anchors": ["densecatfeature.go:DenseCatFeature.Copy", "catmap.go:CatMap.CatToNum"]}
{"id": "C07", "title": "The has-missing flag is sound", "statement": "Whenever some case of a feature is missing, MissingVals() answers true, so that Split and BestSplit really inspect the missing mask.", "quantifier": "every sequence of Append, Put, PutStr, PutMissing, ImputeMissing, Shuffle and Copy operations", "why_tests_cant": "An invariant over operation histories.", "anchors": ["densenumfeature.go:DenseNumFeature.Copy", "densecatfeature.go:DenseCatFeature.Copy", "densenumfeature.go:DenseNumFeature.Append", "densecatfeature.go:DenseCatFeature.PutStr"]}
{"id": "C08", "title": "Missing tokens become missing values", "statement": "Storing one of the missing tokens (empty, ?, nan, na, null, any capitalisation) through Append or PutStr makes that case missing and never creates a category; GetStr then answers NA.", "quantifier": "every feature, every position, every string", "why_tests_cant": "Quantifies over all strings and feature states.", "anchors": ["densecatfeature.go:DenseCatFeature.Append", "densecatfeature.go:DenseCatFeature.PutStr", "densenumfeature.go:DenseNumFeature.Append", "densenumfeature.go:DenseNumFeature.PutStr", "densecatfeature.go:DenseCatFeature.GetStr"]}
{"id": "C09", "title": "Appended values are read back", "statement": "After appending a list of strings to a categorical feature, the i-th GetStr answers the i-th string (NA if it was a missing token), the length is the number of appends, every stored code is below NCats and the data and missing arrays stay equally long.", "quantifier": "every finite list of strings appended to an empty feature", "why_tests_cant": "A statement about all histories of appends.", "anchors": ["densecatfeature.go:DenseCatFeature.Append", "densecatfeature.go:DenseCatFeature.GetStr", "densecatfeature.go:DenseCatFeature.Length"]}
{"id": "C10", "title": "Imputation fills exactly the holes", "statement": "After ImputeMissing no case is missing, MissingVals is false, every value that was present is unchanged, and every hole holds the mean (numerical) or the most frequent category, lowest number on ties (categorical), of the present values.", "quantifier": "every feature content and missing mask", "why_tests_cant": "Quantifies over all data and masks.", "anchors": ["densenumfeature.go:DenseNumFeature.ImputeMissing", "densecatfeature.go:DenseCatFeature.ImputeMissing", "densecatfeature.go:DenseCatFeature.Modei", "densenumfeature.go:DenseNumFeature.Mean"]}
{"id": "C11", "title": "Shuffling a feature is a uniform permutation", "statement": "Shuffle rearranges (value, missing) pairs; every permutation of the pairs is produced by exactly one sequence of random draws, so all n! orders are equally likely.", "quantifier": "every feature and every sequence of legal random draws", "why_tests_cant": "Uniformity is a statement about the set of all draw sequences.", "anchors": ["densenumfeature.go:DenseNumFeature.Shuffle", "densecatfeature.go:DenseCatFeature.Shuffle"]}
{"id": "C12", "title": "ShuffleCases touches only the listed cases", "statement": "ShuffleCases rearranges the (value, missing) pairs of the listed cases among themselves and changes no other case.", "quantifier": "every feature, every list of distinct in-range cases, every draw sequence; for repeated cases the multiset of all pairs is still preserved", "why_tests_cant": "All case lists and draws.", "anchors": ["densenumfeature.go:DenseNumFeature.ShuffleCases", "densecatfeature.go:DenseCatFeature.ShuffleCases"]}
{"id": "C13", "title": "SampleFirstN draws without replacement and respects constants", "statement": "SampleFirstN rearranges the deck without losing or duplicating an entry, returns a prefix of it of at most n entries, never returns or moves one of the trailing nconstants entries, and never asks for a random number from an empty range; with no constants exactly min(n, length) entries are returned and every arrangement of the first n is equally likely.", "quantifier": "every deck, n, number of constants and draw sequence", "why_tests_cant": "All decks and draws.", "anchors": ["sampeling.go:SampleFirstN"]}
{"id": "C14", "title": "Bootstrap samples are in range", "statement": "SampleWithReplacment returns exactly nSamples cases all below totalCases; in-bag and out-of-bag lists computed by growforest are complementary.", "quantifier": "all sizes and draw sequences", "why_tests_cant": "All draws.", "anchors": ["sampeling.go:SampleWithReplacment", "growforest/growforest.go:main"]}
{"id": "C15", "title": "Balanced samplers draw from the class they chose", "statement": "BalancedSampler.Sample returns only non-missing cases, each of the class drawn for it; it never fails when every category has at least one non-missing case. The two level sampler returns cases that carry both drawn classes.", "quantifier": "every categorical feature(s), every draw sequence", "why_tests_cant": "Failure happens only for some class configurations and draws.", "anchors": ["sampeling.go:BalancedSampler.Sample", "sampeling.go:SecondaryBalancedSampler.Sample", "sampeling.go:NewBalancedSampler", "sampeling.go:NewSecondaryBalancedSampler"]}
{"id": "C16", "title": "The two level balanced sampler never fails", "statement": "SecondaryBalancedSampler.Sample succeeds on any pair of features in which every category occurs.", "quantifier": "every pair of categorical features and draw sequences", "why_tests_cant": "Needs a secondary class in which one target class is absent plus a draw selecting it.", "anchors": ["sampeling.go:SecondaryBalancedSampler.Sample"]}
{"id": "C17", "title": "Leaves partition the cases", "statement": "GetLeaves and Tree.Partition deliver each evaluated case to exactly one leaf if no splitter on its path is missing for it or a missing branch exists, and to none otherwise; the leaf is the one obtained by following the splitters one case at a time. The returned leaf slices are disjoint windows of one array and stay valid after the traversal ends.", "quantifier": "every tree in which splitters have both children, every feature matrix, every case list", "why_tests_cant": "Leaf slices alias one array that later recursive calls keep rearranging; all trees and data must be considered.", "anchors": ["node.go:Node.Recurse", "tree.go:Tree.GetLeaves", "tree.go:Tree.Partition"]}
{"id": "C18", "title": "A tree votes at most once per case", "statement": "VoteCases casts, for each listed case, exactly the vote of the leaf the case reaches with weight 1 or the tree weight, and none for a case that is missing at a splitter without missing branch; the order of the case list is irrelevant for the votes cast.", "quantifier": "every tree, matrix and case list", "why_tests_cant": "All trees and data.", "anchors": ["tree.go:Tree.VoteCases", "tree.go:Tree.Vote", "node.go:Node.Recurse"]}
{"id": "C19", "title": "Categorical ballots are weighted plurality votes", "statement": "Tally answers a category whose total vote weight is maximal among those voted for and positive, and NA exactly when no category has positive weight; the totals are the sums of the weights cast, regardless of the iteration order of the vote map.", "quantifier": "every sequence of votes and every map iteration order", "why_tests_cant": "Map iteration order and vote order are arbitrary.", "anchors": ["catballotbox.go:CatBallotBox.Vote", "catballotbox.go:CatBallotBox.Tally"]}
{"id": "C20", "title": "Numerical ballots are weighted means", "statement": "In exact arithmetic the tally of a case is the weighted mean of the non-NaN votes cast for it, in whatever order they arrive; votes for other cases have no effect.", "quantifier": "every multiset of votes with positive weights, every order", "why_tests_cant": "All orders and weights.", "anchors": ["numballotbox.go:NumBallotBox.Vote", "numballotbox.go:NumBallotBox.TallyNum", "utils.go:RunningMean.WeightedAdd"]}
{"id": "C21", "title": "Sum ballots are weighted sums", "statement": "The tally of a case in a SumBallotBox is the sum of prediction times weight over the votes that parse as numbers; Tally answers a number for every case.", "quantifier": "every sequence of votes", "why_tests_cant": "All histories.", "anchors": ["sumballotbox.go:SumBallotBox.Vote", "sumballotbox.go:SumBallotBox.TallyNum"]}
{"id": "C22", "title": "Concurrent voting into numerical and sum ballots", "statement": "For goroutines voting concurrently into a NumBallotBox or SumBallotBox, every schedule gives the tally of some sequential order of the same votes (hence in exact arithmetic one schedule independent tally).", "quantifier": "every number of goroutines, every list of votes per goroutine, every interleaving", "why_tests_cant": "Schedules.", "anchors": ["numballotbox.go:NumBallotBox.Vote", "sumballotbox.go:SumBallotBox.Vote", "utils.go:RunningMean.WeightedAdd"]}
{"id": "C23", "title": "Concurrent voting into categorical ballots", "statement": "For goroutines voting concurrently into a CatBallotBox (documented as thread safe), every schedule credits each vote to the category it names.", "quantifier": "every interleaving of votes", "why_tests_cant": "The name table is updated outside the lock, so only particular schedules show the problem.", "anchors": ["catballotbox.go:CatBallotBox.Vote", "catmap.go:CatMap.CatToNum"]}
{"id": "C24", "title": "Zero weight votes do not matter", "statement": "Voting with weight zero in a NumBallotBox leaves the tally of the case unchanged.", "quantifier": "every vote history containing zero weight votes", "why_tests_cant": "Only a leading zero weight divides 0 by 0.", "anchors": ["utils.go:RunningMean.WeightedAdd", "numballotbox.go:NumBallotBox.Vote"]}
{"id": "C25", "title": "Sparse counts add up", "statement": "After any interleaving of SparseCounter.Add calls the count of (i,j) is the sum of the values added for (i,j), and WriteTsv lists each touched pair exactly once.", "quantifier": "every multiset of Add calls, every schedule", "why_tests_cant": "Schedules and histories.", "anchors": ["utils.go:SparseCounter.Add", "utils.go:SparseCounter.WriteTsv"]}
{"id": "C26", "title": "Leaf co-occurrence counts", "statement": "The case by case counts produced by leafcount are symmetric; entry (i,j) is the number of trees in which i and j share a leaf and the diagonal is the number of trees in which the case reaches a leaf.", "quantifier": "every forest and feature matrix with distinct cases", "why_tests_cant": "All forests.", "anchors": ["leafcount/leafcount.go:main", "tree.go:Tree.GetLeaves"]}
{"id": "C27", "title": "Balanced error is a rate", "statement": "CatBallotBox.TallyError is between 0 and 1, is 0 when every non-missing case is predicted right and 1 when all are wrong.", "quantifier": "every feature whose every category has a non-missing case; every vote history", "why_tests_cant": "All data.", "anchors": ["catballotbox.go:CatBallotBox.TallyError"]}
{"id": "C28", "title": "Cases without votes do not count as errors", "statement": "The squared error of a NumBallotBox is computed from cases that received votes.", "quantifier": "every vote history", "why_tests_cant": "Shows only when some case has no vote.", "anchors": ["numballotbox.go:NumBallotBox.TallySquaredError", "numballotbox.go:NumBallotBox.TallyNum"]}
{"id": "C29", "title": "The numerical split search is exhaustive", "statement": "BestNumSplit returns, among all cut positions leaving at least leafSize cases on each side and separated by a value gap, one whose impurity decrease is maximal, or reports no split when none exceeds the minimum.", "quantifier": "every NaN-free feature, case list, leafSize >= 1 and target whose impurity depends only on which cases are left and right", "why_tests_cant": "All inputs.", "anchors": ["densenumfeature.go:DenseNumFeature.BestNumSplit"]}
{"id": "C30", "title": "The numerical split that is applied is the one evaluated", "statement": "Splitting by the returned threshold puts on the left exactly the cases that were on the left when the reported impurity decrease was computed; so both sides have at least leafSize cases.", "quantifier": "every feature, case list and leafSize", "why_tests_cant": "Fails only for values close together relative to the cutoff or to float64 precision.", "anchors": ["densenumfeature.go:DenseNumFeature.BestNumSplit", "densenumfeature.go:DenseNumFeature.SplitPoints", "featureinterfaces.go:constant_cutoff"]}
{"id": "C31", "title": "The exhaustive categorical search is optimal", "statement": "BestCatSplit without random search returns a category subset whose impurity decrease is maximal among all subsets of categories leaving at least leafSize cases on each side; the reported decrease is the decrease of the returned subset.", "quantifier": "every categorical feature with at most 10 categories, case list, leafSize and symmetric target impurity", "why_tests_cant": "All inputs; only half of the subsets are enumerated.", "anchors": ["densecatfeature.go:DenseCatFeature.BestCatSplit"]}
{"id": "C32", "title": "The greedy categorical search returns a local optimum", "statement": "BestCatSplitIter and BestCatSplitIterBig return a subset whose reported decrease is its real decrease, that leaves leafSize cases on both sides, is at least as good as every admissible single category and cannot be improved by adding one category.", "quantifier": "every categorical feature, case list, leafSize and target", "why_tests_cant": "All inputs.", "anchors": ["densecatfeature.go:DenseCatFeature.BestCatSplitIter", "densecatfeature.go:DenseCatFeature.BestCatSplitIterBig"]}
{"id": "C33", "title": "The binary categorical split", "statement": "BestBinSplit reports a constant feature exactly when one side would be smaller than leafSize and otherwise the decrease of the only non-trivial split; the returned code separates the two categories.", "quantifier": "every two-category feature, case list and leafSize, every target with symmetric impurity", "why_tests_cant": "All inputs.", "anchors": ["densecatfeature.go:DenseCatFeature.BestBinSplit"]}
{"id": "C34", "title": "Missing cases are charged to the impurity decrease", "statement": "With missing values present, BestSplit reports exactly the parent impurity minus the three way (left, right, missing) weighted impurity of the split it returns.", "quantifier": "every feature with missing values, every case list and target (exact arithmetic)", "why_tests_cant": "An algebraic identity over all inputs.", "anchors": ["densecatfeature.go:DenseCatFeature.BestSplit", "densenumfeature.go:DenseNumFeature.BestSplit", "densecatfeature.go:DenseCatFeature.SplitImpurity"]}
{"id": "C35", "title": "Candidate features are never lost", "statement": "FeatureMatrix.BestSplitter only rearranges the candidate list: no candidate is lost or duplicated, the features known to be constant at the end of the list stay where they are, the reported number of constants never decreases, and the chosen feature is one of the candidates.", "quantifier": "every candidate list, mTry at most its length, every outcome of the per-feature searches, every draw sequence", "why_tests_cant": "All draws and outcomes.", "anchors": ["featurematrix.go:FeatureMatrix.BestSplitter"]}
{"id": "C36", "title": "BestSplitter never indexes outside the candidates", "statement": "BestSplitter does not panic and always terminates.", "quantifier": "every candidate list, mTry, force flag, outcome and draw sequence", "why_tests_cant": "Fails only when mTry exceeds the number of non-constant candidates.", "anchors": ["featurematrix.go:FeatureMatrix.BestSplitter"]}
{"id": "C37", "title": "BestSplitter returns the best evaluated split", "statement": "The returned decrease is the maximum over the evaluated candidates and exceeds the minimum impurity; without a returned split no evaluated candidate exceeded it; at least mTry candidates were drawn unless constants ran out, and with force at least one non-constant candidate is evaluated unless all are constant.", "quantifier": "every candidate list, outcome, draw sequence", "why_tests_cant": "All draws.", "anchors": ["featurematrix.go:FeatureMatrix.BestSplitter"]}
{"id": "C38", "title": "Constant features stay constant below", "statement": "A feature recorded as constant at a node admits no legal split on any subset of the node's cases, so skipping it in the whole subtree loses nothing.", "quantifier": "every feature, case list, sub-list and leafSize (deterministic searches)", "why_tests_cant": "All subsets.", "anchors": ["densenumfeature.go:DenseNumFeature.BestNumSplit", "densecatfeature.go:DenseCatFeature.BestCatSplit", "densecatfeature.go:DenseCatFeature.BestBinSplit", "featurematrix.go:FeatureMatrix.BestSplitter"]}
{"id": "C39", "title": "Grown trees respect the limits", "statement": "In a grown tree every split node has both children, every non-missing child received at least leafSize training cases, no split node received fewer than 2*leafSize cases, and no node is deeper than maxDepth when maxDepth > 0.", "quantifier": "every feature matrix, target, parameters and draw sequences for which the applied split is the evaluated one", "why_tests_cant": "All data and draws; induction on the recursion.", "anchors": ["tree.go:Tree.Grow", "node.go:Node.CodedRecurse"]}
{"id": "C40", "title": "Growing a tree terminates", "statement": "Tree.Grow terminates.", "quantifier": "every finite data set and leafSize >= 1", "why_tests_cant": "Non-termination needs two adjacent float64 values whose midpoint rounds to the larger.", "anchors": ["tree.go:Tree.Grow", "node.go:Node.CodedRecurse", "densenumfeature.go:DenseNumFeature.BestNumSplit"]}
{"id": "C41", "title": "Regrowing a tree forgets the old one", "statement": "Calling Grow on a tree that was grown before gives a tree that predicts as one grown from scratch: every case without missing values gets a vote.", "quantifier": "every previous tree and new growth", "why_tests_cant": "Needs a node that used to split and is now a leaf.", "anchors": ["tree.go:Tree.Grow", "tree.go:Tree.VoteCases", "growforest/growforest.go:main"]}
{"id": "C42", "title": "Training cases and leaf predictions", "statement": "The in-bag cases of a fresh grown tree (without missing values at the used splitters) are partitioned among its leaves and every leaf predicts FindPredicted of exactly the cases that reach it.", "quantifier": "every data set, parameters and draws", "why_tests_cant": "All executions.", "anchors": ["tree.go:Tree.Grow", "node.go:Node.CodedRecurse", "densecatfeature.go:DenseCatFeature.FindPredicted"]}
{"id": "C43", "title": "Gini impurity", "statement": "The Gini impurity of a non-empty case list equals 1 minus the sum of squared class frequencies, lies in [0, 1-1/k], is 0 exactly for pure lists, does not depend on the order of the cases, and a split never increases the weighted impurity.", "quantifier": "every label assignment, case list and split (exact arithmetic)", "why_tests_cant": "Inequalities over all data.", "anchors": ["densecatfeature.go:DenseCatFeature.Gini", "densecatfeature.go:DenseCatFeature.Impurity", "densecatfeature.go:DenseCatFeature.SplitImpurity"]}
{"id": "C44", "title": "Regression impurity", "statement": "The impurity of a numerical target is the sum of squared deviations from the mean, is never negative, is 0 exactly for constant values, and the reported split impurity never exceeds the parent impurity.", "quantifier": "every data, case list and split (exact arithmetic)", "why_tests_cant": "Inequalities over all data.", "anchors": ["densenumfeature.go:DenseNumFeature.Impurity", "densenumfeature.go:DenseNumFeature.SplitImpurity", "densenumfeature.go:DenseNumFeature.SumAndSumSquares"]}
{"id": "C45", "title": "Incremental impurity equals recomputed impurity", "statement": "Moving cases from right to left with UpdateSImpFromAllocs gives the same value as computing SplitImpurity of the new lists from scratch.", "quantifier": "every split, every moved list, every chain of moves; Gini, entropy, Neyman-Pearson, weighted, cost and boosting targets at float64 level, numerical target in exact arithmetic", "why_tests_cant": "All histories of moves.", "anchors": ["densecatfeature.go:DenseCatFeature.UpdateSImpFromAllocs", "densenumfeature.go:DenseNumFeature.UpdateSImpFromAllocs", "entropytarget.go:EntropyTarget.ImpFromCounts", "NPtarget.go:NPTarget", "wrftarget.go:WRFTarget.ImpFromCounts", "regrettarget.go:RegretTarget.ImpFromCounts"]}
{"id": "C46", "title": "Disutility entropy is consistent", "statement": "DEntropyTarget gives the same impurity whether it is computed from the cases or incrementally from counts.", "quantifier": "every cost table and case list", "why_tests_cant": "Only non-unit costs show the difference.", "anchors": ["dentropytarget.go:DEntropyTarget.Impurity", "dentropytarget.go:DEntropyTarget.ImpFromCounts"]}
{"id": "C47", "title": "Entropy impurity", "statement": "The entropy impurity of a non-empty list equals minus the sum of p log p (natural logarithm), is between 0 and log k and 0 exactly for pure lists.", "quantifier": "every label assignment (real arithmetic)", "why_tests_cant": "Inequality over all data.", "anchors": ["entropytarget.go:EntropyTarget.Impurity", "entropytarget.go:EntropyTarget.ImpFromCounts"]}
{"id": "C48", "title": "Regret impurity is the average misclassification cost", "statement": "RegretTarget impurity is the average cost of the cases that are not of the predicted (cheapest) category.", "quantifier": "every cost table and case list", "why_tests_cant": "All data.", "anchors": ["regrettarget.go:RegretTarget.ImpFromCounts", "regrettarget.go:RegretTarget.SetCosts"]}
{"id": "C49", "title": "Predicted categories are (weighted) majorities", "statement": "FindPredicted of categorical targets answers a category of maximal (weighted) count among the cases, the lowest numbered one on ties; missing target values are ignored.", "quantifier": "every label assignment and case list", "why_tests_cant": "All data.", "anchors": ["densecatfeature.go:DenseCatFeature.FindPredicted", "densecatfeature.go:DenseCatFeature.Modei", "wrftarget.go:WRFTarget.FindPredicted", "NPtarget.go:NPTarget.FindPredicted"]}
{"id": "C50", "title": "Gradient boosting accounts for every residual", "statement": "In exact arithmetic, after any number of boosting rounds, for every case: intercept plus the sum over the trees of tree weight times the prediction of the leaf reached plus the current residual equals the original target value, provided every case reached a leaf in every round.", "quantifier": "every target, learning rate, sequence of partitions and leaf predictions", "why_tests_cant": "An invariant over histories.", "anchors": ["gradboosttarget.go:GradBoostTarget.Boost", "gradboosttarget.go:NewGradBoostTarget", "forrest.go:GrowRandomForest"]}
{"id": "C51", "title": "Adaptive boosting keeps a distribution", "statement": "After each AdaBoost round with weighted error strictly between 0 and 1/2 the case weights are positive and sum to one, and wrongly classified cases carry exactly half of the weight.", "quantifier": "every partition, weights and labels (real arithmetic)", "why_tests_cant": "An invariant over histories.", "anchors": ["adaboosttarget.go:AdaBoostTarget.Boost"]}
{"id": "C52", "title": "Forest files round trip", "statement": "ReadForest(WriteForest(f)) is f: same target, intercept, tree weights, tree shapes, splitters and predictions, for forests without missing branches.", "quantifier": "every forest whose names, categories and predictions avoid the format's delimiters and surrounding blanks, every map iteration order", "why_tests_cant": "All tree shapes and strings.", "anchors": ["forestwriter.go:ForestWriter.WriteForest", "forestreader.go:ForestReader.ReadForest", "forestreader.go:ForestReader.ParseRfAcePredictorLine", "tree.go:Tree.AddNode"]}
{"id": "C53", "title": "Missing branches survive in forest files", "statement": "A tree with missing branches is written and read back with the same missing branches.", "quantifier": "every tree with missing branches", "why_tests_cant": "The right branch is written in place of the missing branch.", "anchors": ["forestwriter.go:ForestWriter.WriteNodeAndChildren"]}
{"id": "C54", "title": "Any category name survives in forest files", "statement": "Splitters keep their category sets through a file round trip.", "quantifier": "every set of category names", "why_tests_cant": "Fails for names with the delimiters only.", "anchors": ["forestreader.go:ForestReader.ParseRfAcePredictorLine", "forestwriter.go:ForestWriter.DescribeMap"]}
{"id": "C55", "title": "Feature matrix files round trip", "statement": "Parsing the AFM file written by WriteCases gives the written cases: same case labels, feature names and values, missing entries included.", "quantifier": "every feature matrix with at least one case whose strings avoid tab, newline, carriage return and quote and whose first label does not look like a typed feature name", "why_tests_cant": "All matrices.", "anchors": ["featurematrix.go:FeatureMatrix.WriteCases", "featurematrix.go:ParseAFM", "featurematrix.go:ParseFeature"]}
{"id": "C56", "title": "Row and column oriented files agree", "statement": "Parsing a matrix written with features in rows and the transposed file with features in columns gives the same features.", "quantifier": "every rectangular table with typed feature names", "why_tests_cant": "All tables.", "anchors": ["featurematrix.go:ParseAFM", "featurematrix.go:FeatureMatrix.LoadCases"]}
{"id": "C57", "title": "Numerical encoding of categories is one-hot", "statement": "EncodeToNum of a feature with more than two categories yields one numerical feature per category and each case has value 1 in exactly the feature of its category and 0 elsewhere; with at most two categories one feature holding the category number; missing cases stay missing.", "quantifier": "every categorical feature", "why_tests_cant": "All data.", "anchors": ["densecatfeature.go:DenseCatFeature.EncodeToNum", "featurematrix.go:FeatureMatrix.EncodeToNum"]}
{"id": "C58", "title": "One-hot encoding keeps every feature", "statement": "FeatureMatrix.OneHot keeps the information of every feature of the matrix.", "quantifier": "every matrix", "why_tests_cant": "Fails for features with at most two categories.", "anchors": ["densecatfeature.go:DenseCatFeature.OneHot", "featurematrix.go:FeatureMatrix.OneHot"]}
{"id": "C59", "title": "Feature names index the matrix", "statement": "After parsing, AddContrasts, ContrastAll and EncodeToNum the name table maps every feature name to a column of that name, and unchanged columns keep their content.", "quantifier": "every matrix with distinct names, every draw sequence", "why_tests_cant": "All matrices and histories.", "anchors": ["featurematrix.go:FeatureMatrix.AddContrasts", "featurematrix.go:FeatureMatrix.ContrastAll", "featurematrix.go:FeatureMatrix.EncodeToNum"]}
{"id": "C60", "title": "Stripping strings keeps the category tables consistent", "statement": "After StripStrings every categorical feature still has a consistent name table.", "quantifier": "every matrix", "why_tests_cant": "The table is wrong only for some feature positions.", "anchors": ["featurematrix.go:FeatureMatrix.StripStrings"]}
{"id": "C61", "title": "The exported scikit tree is the tree", "statement": "BuildScikitTree lays out the nodes so that following LeftChild and RightChild from node 0 visits exactly the tree: child indices are in range, larger than the parent and used once; leaves have -1 children; NodeCount is the number of nodes and MaxDepth the depth.", "quantifier": "every tree in which splitters have both children", "why_tests_cant": "All shapes.", "anchors": ["sklearn_tree.go:BuildScikitTree", "sklearn_tree.go:NewScikitTree"]}
{"id": "C62", "title": "LibSVM input gives a rectangular matrix", "statement": "ParseLibSVM gives features that all have as many cases as there are lines, with 0 where a line does not mention an index.", "quantifier": "every input whose indices are positive numbers", "why_tests_cant": "All inputs.", "anchors": ["libsvm.go:ParseLibSVM"]}
{"id": "C63", "title": "Cross validation folds", "statement": "nfold assigns each case to at most one fold, all folds have equal size, train and test of a fold are disjoint, and fewer than folds cases (per class when stratified) are left out.", "quantifier": "every number of cases, folds and shuffle", "why_tests_cant": "All sizes and draws.", "anchors": ["utils/nfold/main.go:main"]}
{"id": "C64", "title": "growforest grows the requested number of trees", "statement": "For every schedule of the worker goroutines, growforest finishes without deadlock having grown exactly max(nTrees, nCores) trees.", "quantifier": "every nTrees, nCores and interleaving", "why_tests_cant": "Schedules.", "anchors": ["growforest/growforest.go:main"]}
{"id": "C65", "title": "The tested forest consists of distinct trees", "statement": "With -selftest or -test, the forest that is applied to the test data consists of the nTrees trees that were grown.", "quantifier": "every nTrees and schedule", "why_tests_cant": "The last tree object is reused, so one tree is lost for every run with at least two trees.", "anchors": ["growforest/growforest.go:main"]}
{"id": "C66", "title": "Parallel boosting terminates", "statement": "With -multiboost, growforest terminates for every schedule.", "quantifier": "every schedule with infinite boost weight on some tree", "why_tests_cant": "Needs a perfect tree in a worker.", "anchors": ["growforest/growforest.go:main"]}
{"id": "C67", "title": "leafcount processes each file once", "statement": "For every number of worker goroutines and every schedule leafcount processes each forest file exactly once and the main goroutine finishes exactly after all of them.", "quantifier": "every number of files, workers and interleaving", "why_tests_cant": "Schedules.", "anchors": ["leafcount/leafcount.go:main"]}
{"id": "C68", "title": "Climb visits every node once", "statement": "Climb calls its function exactly once on every node of the tree, parents first; StripCodes leaves shapes, splitters and predictions unchanged and removes all codes.", "quantifier": "every tree", "why_tests_cant": "All shapes.", "anchors": ["node.go:Node.Climb", "tree.go:Tree.StripCodes"]}
{"id": "C69", "title": "Sample mean and variance", "statement": "MeanAndVar returns the mean and the unbiased variance of its arguments (exact arithmetic).", "quantifier": "every list of at least two numbers", "why_tests_cant": "All lists.", "anchors": ["stats/stats.go:MeanAndVar"]}
{"id": "C70", "title": "The span of a numerical feature", "statement": "Span of a numerical feature is the difference between the largest and the smallest non-missing value of the listed cases.", "quantifier": "every feature and case list", "why_tests_cant": "All data.", "anchors": ["densenumfeature.go:DenseNumFeature.Span"]}
{"id": "C71", "title": "Importance bookkeeping", "statement": "After growing trees, the importance counter of a feature has counted exactly the splits using it and its mean is the mean impurity decrease of those splits (exact arithmetic); the recorded depth is the smallest depth at which it was used.", "quantifier": "every growth history", "why_tests_cant": "All histories.", "anchors": ["tree.go:Tree.Grow", "utils.go:RunningMean.Add"]}
{"id": "C72", "title": "Paths address tree nodes", "statement": "Adding nodes by path with AddNode, parents before children, gives the tree in which the node added under a path is found by following the path, and never replaces an existing node.", "quantifier": "every tree shape and every parents-first order", "why_tests_cant": "All shapes.", "anchors": ["tree.go:Tree.AddNode"]}
{"id": "C73", "title": "Jungle merging keeps every case", "statement": "GrowJungle partitions the in-bag cases among the nodes of each level; merging two nodes keeps all their cases.", "quantifier": "every level with a merge", "why_tests_cant": "Needs a merge.", "anchors": ["tree.go:Tree.GrowJungle"]}
{"id": "C74", "title": "Without bagging every usable case trains", "statement": "With bagging switched off (-nobag) every case with a present target value is in the training set of every tree.", "quantifier": "every target column with or without missing values and every nSamples", "why_tests_cant": "Needs missing targets together with nSamples equal to the number of cases.", "anchors": ["growforest/growforest.go:main"]}
{"id": "C75", "title": "Branch counts", "statement": "The case by feature counts filled in by GetLeaves are, for every case and feature, the number of splitters on that feature the case meets on its way through the tree, including the one at which it is lost.", "quantifier": "every tree, feature matrix and case", "why_tests_cant": "All trees.", "anchors": ["tree.go:Tree.GetLeaves", "leafcount/leafcount.go:main"]}
{"id": "C76", "title": "Friedman score is the error reduction", "statement": "In exact arithmetic the split score of the gradient boosting target equals the sum of squared deviations of all the cases minus those of the two sides.", "quantifier": "every value list and every split into two non-empty sides", "why_tests_cant": "All real valued targets and all splits.", "anchors": ["gradboosttarget.go:GradBoostTarget.SplitImpurity", "gradboosttarget.go:GradBoostTarget.UpdateSImpFromAllocs"]}
{"id": "C77", "title": "Random category search returns the best set it drew", "statement": "With more categories than can be enumerated, the random searches (BestCatSplit beyond maxEx, BestCatSplitBig) report the decrease of the set they return, leave leafSize cases on both sides, and no set they drew has a larger decrease.", "quantifier": "every feature, target, case list, random sequence and leafSize", "why_tests_cant": "All draws of the generator.", "anchors": ["densecatfeature.go:DenseCatFeature.BestCatSplit", "densecatfeature.go:DenseCatFeature.BestCatSplitBig"]}
{"id": "C78", "title": "Every leaf has a prediction", "statement": "Every leaf of a fresh grown tree, including the branch for missing values made with splitmissing, predicts a category of the target.", "quantifier": "every target, data set, case list and parameter setting", "why_tests_cant": "All trees.", "anchors": ["tree.go:Tree.Grow", "node.go:Node.CodedRecurse"]}
{"id": "C79", "title": "Features skipped as constants have no split", "statement": "Whenever a node is searched with some features known to be constant (the tail of the candidate list that a parent node found to have no split), none of these features has a split that leaves leafSize cases on both sides, so skipping them loses nothing.", "quantifier": "every tree grown without vet and evaloob, every node visited", "why_tests_cant": "All nodes of all trees, all random draws.", "anchors": ["featurematrix.go:FeatureMatrix.BestSplitter", "tree.go:Tree.Grow"]}
{"id": "C80", "title": "Boosting targets keep missing values missing", "statement": "Making a gradient boosting target leaves the cases whose target value is missing marked as missing, in the target and in the feature it was made from.", "quantifier": "every feature and learning rate", "why_tests_cant": "All columns with missing values.", "anchors": ["gradboosttarget.go:NewGradBoostTarget", "gradboostclasstarget.go:NewGradBoostClassTarget", "densecatfeature.go:DenseCatFeature.EncodeToNum"]}
{"id": "C81", "title": "Two class boosting keeps score and residual together", "statement": "After any number of boosting rounds the score of every case is the intercept plus the learning rate times the predictions of the leaves it reached, added in order, and its residual is its label (0 or 1) minus the logistic function of that score.", "quantifier": "every target, learning rate, sequence of trees and number arithmetic", "why_tests_cant": "An invariant over histories.", "anchors": ["gradboostclasstarget.go:GradBoostClassTarget.Boost", "gradboostclasstarget.go:NewGradBoostClassTarget"]}
{"id": "C82", "title": "Malformed forest files are reported", "statement": "ReadForest returns an error for a file with a node outside a tree and for a file that ends inside a line.", "quantifier": "every malformed file of these two kinds", "why_tests_cant": "Only malformed files show it.", "anchors": ["forestreader.go:ForestReader.ReadForest", "forestreader.go:ForestReader.ReadTree"]}
{"id": "C83", "title": "Unreadable matrix lines are not lost silently", "statement": "ParseAFM keeps every feature line of its input or tells its caller that it could not.", "quantifier": "every matrix file", "why_tests_cant": "A test feeds well formed files; a stray quote in one of a hundred thousand rows drops all rows after it and the caller gets a smaller matrix that looks fine.", "anchors": ["featurematrix.go:347-408"]}
{"id": "C84", "title": "LibSVM input is read to its end", "statement": "ParseLibSVM reads a case for every line of its input, whether or not the last line ends in a newline.", "quantifier": "every input", "why_tests_cant": "Test files are written by editors that end the last line; generated files often do not.", "anchors": ["libsvm.go:25-27"]}
{"id": "C85", "title": "LibSVM entries do not touch the target", "statement": "No entry of a line changes the target value of its case, and a malformed line does not crash the parser.", "quantifier": "every input", "why_tests_cant": "Real files contain qid entries, zero based indices, comments and blank lines that small tests leave out.", "anchors": ["libsvm.go:66-84"]}
{"id": "C86", "title": "nfold encodes when asked to", "statement": "With -onehot, nfold writes matrices in which every categorical feature with more than two categories is replaced by its indicator features.", "quantifier": "every matrix", "why_tests_cant": "The result of OneHot is dropped for every input.", "anchors": ["utils/nfold/main.go:main"]}
{"id": "C87", "title": "Trees in the forest file are numbered", "statement": "The trees that growforest writes to the forest file are numbered 0, 1, 2, ... in the order in which they are written.", "quantifier": "every number of trees, of cores and every schedule", "why_tests_cant": "The counter is only advanced with -progress; without it every tree is written as tree 0 and no reader complains.", "anchors": ["growforest/growforest.go:main"]}
{"id": "C88", "title": "The p value of a feature is a probability", "statement": "Ttest answers a number between 0 and 1 for all samples of at least two numbers; exchanging the two samples gives the complementary p value.", "quantifier": "all pairs of samples, whatever math.Pow and math.Lgamma answer", "why_tests_cant": "A feature that no ACE forest used gives two samples of zeros, whose p value is not a number.", "anchors": ["stats/stats.go:Ttest", "growforest/growforest.go:main"]}
{"id": "C89", "title": "Features a jungle skips as constants have no split", "statement": "Whenever GrowJungle searches a node with some features known to be constant, none of these features has a split that leaves leafSize cases on both sides, so skipping them loses nothing (what C79 says of Grow).", "quantifier": "every jungle grown without vet and evaloob", "why_tests_cant": "The nodes of a level share one candidate list, in which a node of the other half of the tree may have moved features: a wrong skip only shows as a leaf that could have been split.", "anchors": ["tree.go:Tree.GrowJungle", "featurematrix.go:FeatureMatrix.BestSplitter"]}
{"id": "C90", "title": "Density trees find the dense regions", "statement": "A DensityTarget grows trees that split whenever some feature separates the cases, and the density predicted for a leaf is the share of the cases in it divided by the volume spanned by all features.", "quantifier": "all data sets, parameters and random draws", "why_tests_cant": "A tree that never splits and a density of +Inf are written to the forest file like any other.", "anchors": ["densitytarget.go:DensityTarget.Impurity", "densitytarget.go:DensityTarget.FindPredicted", "densenumfeature.go:DenseNumFeature.Span"]}
{"id": "C91", "title": "The density term of transduction uses all features", "statement": "TransTarget.Density is the product of the spans of all features other than the target, categorical and numerical, divided by the squared number of cases.", "quantifier": "all data sets and all sets of cases", "why_tests_cant": "The term is one summand of an impurity; leaving out features changes trees only by degrees.", "anchors": ["transduction.go:TransTarget.Density", "transduction.go:TransTarget.Impurity", "densecatfeature.go:DenseCatFeature.Span"]}
{"id": "C92", "title": "Absolute error regression minimises the absolute error", "statement": "The impurity of L1Target is the mean absolute deviation of the known values, zero for constant nodes only and independent of the order; a split has the average of its parts and never more than the parent; the value a leaf predicts has the least absolute error; parts without known values do no harm.", "quantifier": "all numerical targets with missing values, all sets of cases and splits", "why_tests_cant": "Small samples rarely show a split above its parent, and the tests never compare the mean with the median.", "anchors": ["l1target.go:L1Target.Impurity", "l1target.go:L1Target.SplitImpurity", "l1target.go:L1Target.Error"]}
{"id": "C93", "title": "Ordinal trees predict the most frequent class", "statement": "OrdinalTarget.Mode answers the most frequent class among the known cases, the lowest on ties, for all numerical targets; the impurity is the mean squared distance from it and splitting does not raise it.", "quantifier": "all numerical targets, negative values included, and all sets of cases", "why_tests_cant": "The count table is sized from the largest value; values below zero need a data set nobody ran.", "anchors": ["ordinaltarget.go:NewOrdinalTarget", "ordinaltarget.go:OrdinalTarget.Mode", "ordinaltarget.go:OrdinalTarget.Impurity"]}
{"id": "C94", "title": "Boosting a numerical target keeps a distribution", "statement": "After NumAdaBoostTarget.Boost the weights are positive and sum to 1, a known case being multiplied by exp(weight (deviation - error)); a tree that is no better than predicting the overall mean gets weight 0 and changes nothing.", "quantifier": "all targets, weights, and trees with disjoint leaves", "why_tests_cant": "Needs trees whose error is exactly 0 or at the threshold, and all weights at once.", "anchors": ["numadaboostingtarget.go:NumAdaBoostTarget.Boost", "numadaboostingtarget.go:NumAdaBoostTarget.Impurity", "numadaboostingtarget.go:NewNumAdaBoostTarget"]}
{"id": "C95", "title": "Hellinger trees score splits by the Hellinger distance", "statement": "HDist orders the splits of a node as the Hellinger distance between the class distributions of its sides does: between 0 and its maximum, 0 iff the classes are sent left in equal shares, maximal iff the split separates them, for any number of classes; a leaf predicts the share of the positive class.", "quantifier": "all categorical targets, all splits, all class counts", "why_tests_cant": "Two splits with opposite orders under both measures have to be found; targets with one or three classes are not in the tests.", "anchors": ["hdistancetarget.go:HDistanceTarget.HDist", "hdistancetarget.go:HDistanceTarget.SplitImpurity", "hdistancetarget.go:HDistanceTarget.FindPredicted"]}
{"id": "C96", "title": "The candidate features are the ones asked for", "statement": "growforest searches exactly the features that are not the target, not in the blacklist file and selected by the -blockRE and -selectRE expressions; the number of features it derives mTry from is their number, and mTry and leafSize are at least 1.", "quantifier": "all matrices, blacklists, expressions and numbers given on the command line", "why_tests_cant": "The count and the list are kept separately; they agree in every run in which the target is not on the blacklist.", "anchors": ["growforest/growforest.go:main", "utils.go:ParseAsIntOrFractionOfTotal"]}
{"id": "C97", "title": "ACE selects the features that beat their contrasts", "statement": "After the ACE forests, growforest keeps as candidates exactly the features whose importance over the forests exceeds the one of their contrasts with a p value below the cutoff, and every importance of every ACE forest is recorded for its feature.", "quantifier": "all matrices, numbers of ACE forests, cutoffs and importances", "why_tests_cant": "The importances are random; with one forest the p value is not a number and nothing is selected.", "anchors": ["growforest/growforest.go:main", "stats/stats.go:Ttest"]}
{"id": "C98", "title": "Boosting happens when it is asked for", "statement": "When -adaboost or -gradboost is given, growforest grows its forest from the boosting target asked for and calls its Boost method after every tree; GrowRandomForest boosts every target that has a Boost method.", "quantifier": "all target columns and all combinations of flags", "why_tests_cant": "The dispatch is a type assertion at run time on a method with another number of parameters; the compiler accepts it, and tests cover one combination.", "anchors": ["growforest/growforest.go:main", "featureinterfaces.go:BoostingTarget", "forrest.go:GrowRandomForest", "adaboosttarget.go:AdaBoostTarget.Boost"]}
{"id": "C99", "title": "The report on test data counts the cases", "statement": "The counts that growforest reports for each category of the test data are the numbers of cases with that actual value, with that prediction, with both, and with that prediction but another actual value; the totals are those of correct and of unpredicted cases.", "quantifier": "all columns of actual values with missing values and all predictions", "why_tests_cant": "Predicting a category that the test file does not have, and missing targets, need particular files.", "anchors": ["growforest/growforest.go:main"]}
{"id": "C100", "title": "applyforest predicts what the forest predicts", "statement": "The prediction applyforest writes is the intercept of the forest plus the weighted sum of its trees for a boosted forest, and the weighted mean or plurality of its trees otherwise.", "quantifier": "all forests, matrices and flags, in any arithmetic", "why_tests_cant": "The right flags give the right numbers; with the default ones the predictions are plausible and wrong.", "anchors": ["applyforest/applyforest.go:main", "sumballotbox.go:SumBallotBox.TallyNum", "growforest/growforest.go:main"]}
{"id": "C101", "title": "Vetting compares like with like", "statement": "With -vet the decrease of a split is compared with the one of a shuffled copy of the same target under the same impurity, and growing with -vet and -evaloob does not fail.", "quantifier": "all targets, flags, samples and features", "why_tests_cant": "The copy of a wrapped target is the plain feature, which works; the buffers are only too small when most cases stay out of the bag.", "anchors": ["featurematrix.go:FeatureMatrix.BestSplitter", "splitallocations.go:NewBestSplitAllocs", "growforest/growforest.go:main"]}
{"id": "C102", "title": "ARFF files are read back as written", "statement": "WriteArffCases followed by ParseARFF gives the written cases again: one feature per feature, in order and with its kind, and in every written case its value or a missing value.", "quantifier": "all matrices, all non-empty lists of cases, all relation names", "why_tests_cant": "the text of names, categories and labels decides whether lines and fields are recognised; tests use tame names", "anchors": ["arff.go:15-74", "arff.go:76-119"]}
{"id": "C103", "title": "libsvm files hold the imputed, encoded columns", "statement": "WriteLibSvm followed by ParseLibSVM gives column j+1 the numbers of the j-th column of the imputed and one-hot encoded other features in every case, and the first column the target.", "quantifier": "all matrices, targets and numbers of cases", "why_tests_cant": "sparse files drop zeros; only some data sets end in columns of zeros or have targets whose first text has no point", "anchors": ["libsvm.go:99-148", "libsvm.go:15-97"]}
{"id": "C104", "title": "Writing some cases as libsvm leaves the matrix alone", "statement": "WriteLibSvmCases writes the listed cases, with missing values imputed in the file, and leaves the caller's matrix as it was.", "quantifier": "all matrices, targets and lists of cases", "why_tests_cant": "the caller sees the change only when it uses the matrix again after writing", "anchors": ["libsvm.go:150-205"]}
{"id": "C105", "title": "The libsvm files of nfold use imputed values", "statement": "nfold -writelibsvm writes for every fold the listed cases of the one-hot encoded matrix, a missing categorical value imputed alike in every column, and leaves the matrix for the later folds as it was.", "quantifier": "all matrices with categorical features, all targets, all folds", "why_tests_cant": "the columns share one slice of flags, which shows only with missing values in features of three and more categories", "anchors": ["utils/nfold/main.go:218-261", "densecatfeature.go:28-57", "densenumfeature.go:664-683"]}
{"id": "C106", "title": "toafm keeps the features that are not on the blacklist", "statement": "toafm writes the features that are not blacklisted, never dropping a target, under distinct names with the prefix of their kind and with unchanged values; with -anontarget the target comes first and names, labels and categories are numbers; with -libsvmtarget the named feature is the target.", "quantifier": "all matrices with distinct names, all blacklists, all combinations of targets", "why_tests_cant": "options interact: names are replaced before the libsvm target is looked up", "anchors": ["utils/toafm/main.go:32-171"]}
{"id": "C107", "title": "Expit and Logit are the logistic function and its inverse", "statement": "Expit(x) is 1/(1+exp(-x)): it lies strictly between 0 and 1, is strictly increasing, and Logit undoes it; Logit followed by Expit gives the chance back for every chance strictly between 0 and 1. In float64 a score at which tanh rounds to 1 gives the chance 1 exactly, and Logit of it is infinite.", "quantifier": "all real scores and chances; all float64 scores at which tanh saturates", "why_tests_cant": "an identity over all reals; a test samples a few scores and a tolerance hides saturation", "anchors": ["gradboostclasstarget.go:8-19"]}
{"id": "C108", "title": "Leaf values of two-class boosting are Newton steps", "statement": "The value a leaf gets in two-class gradient boosting is one Newton step, -L'(0)/L''(0), of the log likelihood of the leaf's labels as a function of a shift added to the scores of its cases, and the target keeps scores and residuals in step so this holds after any number of rounds. A leaf whose residuals have all become 0 gets NaN, a NaN leaf value spreads to all its cases, and a target without a positive case has intercept -Inf and only NaN leaves.", "quantifier": "all targets with both labels, all sequences of rounds and leaves, all leaves; all float64 states with settled residuals", "why_tests_cant": "relates an update formula to derivatives of a likelihood; failures show only after the residuals underflow", "anchors": ["gradboostclasstarget.go:55-120", "gradboostclasstarget.go:8-19"]}
{"id": "C109", "title": "Cost-sensitive adaptive boosting keeps a distribution", "statement": "AdaCostTarget.Boost leaves positive weights that sum to one, raising misclassified cases by exp(vote) and lowering the others by exp(-vote), each times the cost of its label; a tree with cost-weighted error of at least a half changes nothing and gets vote 0; afterwards the misclassified cases carry (1-e)/(1-e+h) of the weight, with e and h the cost-weighted error and hit mass, which is a half only if e+h=1. With the costs a new target has (all 0) every weight becomes NaN.", "quantifier": "all labels, leaves, positive weights and positive costs; all weights with zero costs", "why_tests_cant": "normalisation and the share hold for all weights; tests never run this Boost, no driver calls it", "anchors": ["adacosttarget.go:26-28", "adacosttarget.go:98-174"]}
{"id": "C110", "title": "The score of a transduction split", "statement": "The impurity of a transduction tree's split, also when it is updated while cases move, is the supervised split impurity plus alpha times the size-weighted average of the density terms (product of the positive spans over the squared number of cases); alpha 0 gives the supervised one. When no feature has a positive span, as with numerical features only, the unsupervised term depends on nothing but the sizes of the two sides.", "quantifier": "all supervised impurities, all features, alphas and splits", "why_tests_cant": "an identity over all splits; that the term ignores the data shows only by comparing all splits of equal sizes", "anchors": ["transduction.go:57-132"]}
{"id": "C111", "title": "Looking up a label does not change the target", "statement": "Making a Neyman-Pearson or transduction target from a label the feature has leaves the feature alone and uses that label's number. With a label it does not have, the feature gets one more category that no case has, and the Neyman-Pearson impurity is 0 for every set of cases. A leaf of the disutility entropy target predicts not a category but the cost-weighted share of the cases labelled True, which is between 0 and 1, always 0 (and adds a category) when there is no such label, and NaN with the costs a new target has.", "quantifier": "all features, labels, parameters and sets of cases", "why_tests_cant": "a misspelt label fails silently; no test uses one", "anchors": ["NPtarget.go:40-42", "transduction.go:42-52", "dentropytarget.go:22-24", "dentropytarget.go:85-114"]}
{"id": "C112", "title": "Neyman-Pearson impurity judges the prediction", "statement": "The Neyman-Pearson impurity of a set of cases is computed for the label a leaf with these cases predicts: kappa times the excess of the share of negatives over alpha if it is the positive label, otherwise the share of positives. It is never negative, 0 for cases of one label, and the split impurity is the size-weighted average. It is also 0 for mixtures with a share of negatives up to alpha, and a split can have a larger impurity than the cases together.", "quantifier": "all labels, parameters, sets of cases and splits", "why_tests_cant": "two separately written scans must agree for all counts", "anchors": ["NPtarget.go:47-61", "NPtarget.go:95-163"]}
{"id": "C113", "title": "Mode of a numerical feature", "statement": "DenseNumFeature.Mode returns the value that occurs in most of the known cases, whatever order the map is read in, when one value occurs more often than the others (each NaN counting once). When values tie the answer depends on the map's order, NaN are never counted together, and without known cases the answer is 0.", "quantifier": "all features and cases, all iteration orders of the map", "why_tests_cant": "Go randomises map order, so a test sees one order per run", "anchors": ["densenumfeature.go:531-549"]}
{"id": "C114", "title": "Out of bag votes of growforest", "statement": "The out of bag votes growforest gives to a case are exactly those of the trees that were not trained on it, one vote each for the leaf the case reaches; the out of bag prediction is the best supported category, or the weighted mean of the predicted numbers. For boosted trees it should be the sum of the predictions, as applyforest -sum does it, and it is not.", "quantifier": "all trees, samples and cases", "why_tests_cant": "a tree voting on its own training cases only makes the reported error too small", "anchors": ["growforest/growforest.go:651-662", "growforest/growforest.go:693-695", "growforest/growforest.go:857-859"]}
{"id": "C115", "title": "Preparing the data", "statement": "-permutate rearranges the values of the target, -shuffleRE those of the other matching features, -impute first fills in all missing values; everything else stays as it was. Filling in should leave the target's labels alone, and does not: every case without a label gets one and is then counted and sampled.", "quantifier": "all matrices, flags and random draws", "why_tests_cant": "the effect on the labels shows only in data with missing labels", "anchors": ["growforest/growforest.go:317-341"]}
{"id": "C116", "title": "Importance scores file", "statement": "Each row of the importance file shows the mean decrease, the number of uses, the decrease per tree, the decrease per tree using the feature, the number of these trees and the mean minimal depth. A feature used at the root of a tree should count as used by it, and does not; unused features get NaN.", "quantifier": "all forests and features", "why_tests_cant": "a depth of 0 also means unused, so the confusion shows only for root features", "anchors": ["growforest/growforest.go:674-681", "growforest/growforest.go:880-885"]}
{"id": "C117", "title": "Cases without a target value", "statement": "Cases without a target value do not influence a tree: a leaf for numbers predicts the mean of the known values, which has the least squared error among all predictions, and missing cases are neither sampled nor counted in impurities. The last two do not hold: GrowRandomForest samples them, and impurities count them with the stored 0 or first category.", "quantifier": "all targets, masks, sets of cases and random draws", "why_tests_cant": "the test data have no missing target values", "anchors": ["densenumfeature.go:499-529", "densenumfeature.go:470-497", "densecatfeature.go:1030-1065", "forrest.go:47-52"]}
{"id": "C118", "title": "Opening a data file by its name", "statement": "LoadAFM reads back what the matrix, ARFF and libsvm writers wrote, by the ending of the file name, zipped or not. Zipped ARFF and libsvm files, and names with a capital ending, are read as matrices and panic, and so does an empty archive.", "quantifier": "all matrices, file names and archives", "why_tests_cant": "no test opens an archive", "anchors": ["featurematrix.go:411-439"]}
{"id": "C119", "title": "Splits found for boosted and Hellinger targets", "statement": "With a boosting target the number reported for a split is the squared error it removes, scaled by the share of cases whose value is known, and no tried split removes more; with a Hellinger target it is the distance between the branches, scaled the same way. With missing values the boosting score of the missing branch is charged one extra unit per case when it is nearly constant, so splits that remove little error are not reported.", "quantifier": "all features, targets, cases and costs", "why_tests_cant": "the score is compared with itself in tests, and no test has missing values with a boosting target", "anchors": ["gradboosttarget.go:61-115", "hdistancetarget.go:24-87", "densenumfeature.go:226-271", "densecatfeature.go:168-228"]}
{"id": "C120", "title": "The error printed is that of the predictions", "statement": "When the data have the target, the error applyforest prints is that of the predictions written, over the known cases: for numbers the squared error divided by the spread of the target, 0 exactly if every prediction is right, and 1 minus the coefficient of determination. With -sum it is 1 whatever is predicted, with an intercept it is that of other predictions, and for a constant target or a category no case has it is not a number.", "quantifier": "all votes, targets and intercepts", "why_tests_cant": "tests only look at predictions", "anchors": ["applyforest/applyforest.go:69-78", "numballotbox.go:62-129", "catballotbox.go:77-118", "sumballotbox.go:75-79"]}
{"id": "C121", "title": "Costs and weights are given by category name", "statement": "The costs and weights read from a file are looked up by the name of the category, so a regret, weighted Gini, weighted entropy or boosting cost target scores cases by the names of their categories and the order in which the categories were met does not matter. With -adacost a tie is broken by the numbering, and a misspelt name silently costs nothing.", "quantifier": "all targets, cases, costs and numberings of the categories", "why_tests_cant": "tests use one numbering of two categories", "anchors": ["regrettarget.go:29-34", "regrettarget.go:108-147", "dentropytarget.go:28-33", "dentropytarget.go:73-83", "adacosttarget.go:37-42", "adacosttarget.go:94-127", "wrftarget.go:14-22", "wrftarget.go:74-97", "growforest/growforest.go:444-484"]}
{"id": "C122", "title": "The cases a tree is grown from", "statement": "Every tree is grown from as many cases as -nSamples asks for, all with a known target, also when balancing; with -nobag and no -nSamples it is grown from every known case exactly once. If no case is known the sampler never returns, -nobag ignores -balance, and a share written with an exponent means all cases.", "quantifier": "all targets, options and random draws", "why_tests_cant": "the draws are random and the tests have known targets only", "anchors": ["growforest/growforest.go:343-362", "growforest/growforest.go:381-384", "growforest/growforest.go:605-611", "growforest/growforest.go:621-649"]}
{"id": "C123", "title": "What vetting compares a split with", "statement": "With -vet a split is worth what it gains beyond the best split, with the same feature, of a copy of the target whose values were rearranged among the same cases, the gain being measured from the impurity of that copy. This holds when the cases are all different; when bagging draws a case twice the copy has other numbers of each category, and with -evaloob the copy is measured over out of bag cases from the impurity of the bag, so more is subtracted than any split can gain.", "quantifier": "all categorical targets with Gini impurity, features, cases and random draws", "why_tests_cant": "the contrast is random and never compared with the target", "anchors": ["featurematrix.go:165-171", "featurematrix.go:237-247", "densecatfeature.go:1164-1181", "densenumfeature.go:611-628"]}
{"id": "C124", "title": "The record of splits leafcount writes", "statement": "With -splits the record lists, for every feature, the splits of all nodes using it, in the order of the trees and nodes. This holds for one goroutine; with several no split is listed more often than it occurs, but some are lost because the goroutines change one map without a lock. A category with a comma in its name is not told apart from two.", "quantifier": "all forests, interleavings and iteration orders", "why_tests_cant": "races show up in rare schedules only", "anchors": ["leafcount/leafcount.go:24", "leafcount/leafcount.go:54-114", "node.go:27-38"]}
{"id": "C125", "title": "Filtering out missing cases", "statement": "FilterMissing appends the cases whose value is known, in order and with repetitions, to what was filtered before; it panics exactly for cases outside the feature, and filtering a slice into its own array gives the same result.", "quantifier": "all features, cases and earlier results", "why_tests_cant": "the function has no tests", "anchors": ["densecatfeature.go:929-936", "densenumfeature.go:378-385"]}
{"id": "C126", "title": "Quotes in matrix files", "statement": "A field of a matrix file may hold any text, with tabs, quotes and newlines, if it is quoted: labels, names and cells are read as they are. Files without quotes are read line by line. WriteCases quotes nothing, so a matrix with a quote in a category or label loses features, renames categories or cannot be read when written and read again.", "quantifier": "all inputs and tables", "why_tests_cant": "tests use files without quotes", "anchors": ["featurematrix.go:106-135", "featurematrix.go:316-341", "featurematrix.go:347-408"]}
{"id": "C127", "title": "Votes go by names", "statement": "The votes of a tree read from a file depend on the data only through the values it holds, for each case, under the names of the features the tree splits on: order of columns and cases, other columns and the numbering of categories do not matter, and a feature the data does not have counts as missing.", "quantifier": "all trees without coded splits, all pairs of matrices, all case lists and correspondences of cases", "why_tests_cant": "tests apply a forest to the matrix it was grown from, with the same columns, cases and category numbers", "anchors": ["splitter.go:24-68", "tree.go:394-424", "densecatfeature.go:157-159", "densenumfeature.go:102-104"]}
{"id": "C128", "title": "Forest files vote as the grown trees", "statement": "Growing uses coded splits (numbers of categories, positions of columns), the forest file holds names. Applied to the data it was grown from, the file read back gives the votes of the grown trees, so each training case gets the prediction of the leaf it was put in.", "quantifier": "all grown trees and forests the format can hold, all matrices, case lists, weights and draws", "why_tests_cant": "tests compare file and tree for one or two small forests", "anchors": ["tree.go:66-73", "tree.go:394-424", "splitter.go:24-68", "forestwriter.go", "forestreader.go"]}
{"id": "C129", "title": "A tree depends only on the values of its cases", "statement": "The tree grown from a list of cases depends only on the values of the features and of the target for these cases, in their order: not on the numbers of the cases, nor on values of other cases. In particular the vote of a tree for an out of bag case does not depend on the label of that case.", "quantifier": "all matrices, targets, case lists (with repetitions), parameters, draws and depths", "why_tests_cant": "tests grow one forest from one matrix and never change rows a tree did not see", "anchors": ["tree.go:96-176", "featurematrix.go:148-254", "densenumfeature.go:225-340", "densecatfeature.go:250-330"]}
{"id": "C130", "title": "Numerical features count only by the order of their values", "statement": "When the values of numerical features are replaced by others in the same order (a rescaling, a logarithm, ranks), the same tree is grown with other thresholds: the same columns, categorical splits, predictions, importances, depths and draws, and every case the tree is grown from goes the same way and gets the same vote.", "quantifier": "all matrices, targets, parameters, draws, case lists and order preserving replacements", "why_tests_cant": "tests grow from one matrix with one scale", "anchors": ["densenumfeature.go:225-366", "sortby.go:1-180", "featurematrix.go:148-262", "tree.go:96-176"]}
{"id": "C131", "title": "A tree does not depend on the order of the cases it is grown from", "statement": "Growing a tree from a list of cases and from any rearrangement of the list (with the same random draws, and the out of bag cases in any order) gives the same tree: the same nodes, the same thresholds and codes, the same predictions, the same importances and depths, after the same number of draws.", "quantifier": "All data sets with missing values and ties, all categorical and numerical features, all settings of mTry, leaf size, depth, random splits, force, split on missing and out of bag evaluation, all lists of cases with repetitions, all random draws; Gini, entropy and Hellinger targets in float64; squared error and gradient boosting in exact arithmetic; not with -vet.", "why_tests_cant": "A test compares a few orders of one data set; ties, missing values, the in-place rearrangements of the searches and the caches carried between searches make the order matter only in particular combinations.", "anchors": ["densenumfeature.go:285-371", "densecatfeature.go:403-923", "featurematrix.go:148-262", "tree.go:96-176", "densecatfeature.go:945-1078"]}
{"id": "C132", "title": "The splits of a tree do not hang on how the target is written", "statement": "Targets whose impurities move in step grow trees with the same nodes, splits, importances and depths. So renumbering the classes of a categorical target (as another order of its labels in the file does) leaves the splits and every prediction decided by a clear majority unchanged; giving all classes the same weight grows the tree that no weights grow; and adding a constant to a numerical target leaves the splits unchanged and moves every prediction by the constant.", "quantifier": "All data sets with missing values and ties, all categorical and numerical features, all settings including -vet and out of bag evaluation, all lists of cases, all random draws, all permutations of the class numbers, all weights and constants; in exact arithmetic, float64 refuted; ties between classes refuted.", "why_tests_cant": "A test would have to compare two runs on files that differ in the order of labels, and the difference shows only where impurities tie up to rounding or classes tie in a leaf.", "anchors": ["densecatfeature.go:945-1078", "densenumfeature.go:394-530", "wrftarget.go:1-123", "entropytarget.go:1-70", "tree.go:96-176", "featurematrix.go:148-262"]}
{"id": "C133", "title": "A tree does not depend on what earlier trees left in memory", "statement": "growforest and GrowRandomForest allocate the memory of the search (values, codes, counters, sums, the contrast copy of the target for -vet, and in growforest the nodes of the last tree) once per goroutine and reuse it. Nothing of what is left there has an influence: a goroutine that grows a series of trees gives the trees, importances, depths and random draws that growing each of them in overwritten memory from a new root would give.", "quantifier": "all numbers of trees, all data, cases and parameters, all contents of the memory of the right sizes, all classification targets over counts, Hellinger distance, squared error, gradient boosting and targets without memory, all random draws, any arithmetic for classification", "why_tests_cant": "stale memory shows only for particular sequences of trees and a test would need to fill the memory with every content", "anchors": ["growforest/growforest.go:593-680", "splitallocations.go:34-76", "featurematrix.go:163-175", "forrest.go:40-75", "tree.go:96-176"]}
{"id": "C134", "title": "A grown jungle votes like a tree: every case ends in a leaf that was given its prediction", "statement": "In a jungle grown by GrowJungle with recombination of nodes, following the pointers from the root with a case always ends in a leaf whose Pred was set from the cases of that leaf; nodes that were merged away are out of reach, no pointer leads in a circle, and VoteCases gives each case exactly one vote.", "quantifier": "all targets, data, parameters and random draws for which growing is possible, all lists of cases voted on", "why_tests_cant": "Merges need close impurities in floating point on two sides of different splits and are rare in test data; whether a dead node is still reachable depends on chains of merges within a level.", "anchors": ["tree.go:178-334", "node.go:53-72", "tree.go:407-424"]}
{"id": "C135", "title": "Growing a jungle on a used tree gives the jungle of a new tree", "statement": "growforest makes one tree per goroutine and grows it again and again; GrowJungle on a tree that was grown before, whatever nodes it has, splits the same cases in the same way and votes as GrowJungle on a new tree.", "quantifier": "all old nodes, targets, data, parameters and random draws for which growing is possible, all calls of VoteCases", "why_tests_cant": "Needs two jungles grown one after the other on one Tree, where the second one happens to be a single leaf; the tests grow one tree per Tree.", "anchors": ["tree.go:178-334", "growforest/growforest.go:600-665", "tree.go:407-424"]}
{"id": "C136", "title": "Forest files of jungles vote as the jungles", "statement": "A jungle is written to the forest file like a tree, a node with several parents below each of them; writing ends without a panic, and the trees read back cast the votes of the jungles.", "quantifier": "all jungles grown from a feature matrix with any target, parameters and draws, forests of any length, all cases of the matrix, any order of map keys", "why_tests_cant": "The tests never write a jungle; needs shared nodes and missing values in one forest.", "anchors": ["forestwriter.go:26-98", "tree.go:178-334", "forestreader.go:30-225", "tree.go:407-424"]}
{"id": "C137", "title": "Boosting never worsens the fit of the training cases", "statement": "Growing a gradient boosted forest, each tree added leaves the sum of squared residuals of the training cases no larger than before, for a learning rate between 0 and 2, and strictly smaller when some leaf has an average residual other than zero; the residuals are exactly those of the shrunken steps towards the leaf averages.", "quantifier": "all training matrices, targets, learning rates, numbers of trees, candidates, parameters and draws, any choice of the cases of each tree", "why_tests_cant": "The tests boost one data set with one rate and check the final error only.", "anchors": ["forrest.go:35-69", "gradboosttarget.go:26-115", "growforest/growforest.go:664-680", "tree.go:290-334"]}
{"id": "C138", "title": "Two-class boosting never makes the training labels less likely", "statement": "Growing a forest that boosts a two-class target, each tree added leaves the likelihood that the logistic scores give to the training labels no smaller than before; the scores are exactly those of the Newton steps of the leaves, starting from the logit of the share of the positive class.", "quantifier": "all categorical targets with both classes, training matrices, learning rates, numbers of trees, candidates, parameters and draws, any choice of the cases of each tree", "why_tests_cant": "The tests boost one data set with one rate and check the final error only; the bound on the rate depends on the scores reached.", "anchors": ["forrest.go:35-69", "gradboostclasstarget.go:26-120", "growforest/growforest.go:664-680"]}
{"id": "C139", "title": "The files of applyforest hold the support of every predicted category and the best supported one", "statement": "When applyforest applies a categorical forest without intercept to a matrix with a label for every case, the file of -votes has a heading and one row per case, one column for every category of the target, and in each field the sum of the weights of the trees whose leaf for that case predicts that category; the file of -preds has one row per case with its label, a category of greatest support (NA if none has positive support) and the known value of the target (NA if the matrix has no target). Both files read back as these tables.", "quantifier": "all matrices, forests with well formed trees and any weights, iteration orders of the vote maps, targets present or absent", "why_tests_cant": "a test fixes one forest and one matrix; the claim joins the traversal of every tree, the numbering of categories by first vote, Go's random map order and the layout of two files", "anchors": ["applyforest/applyforest.go:57-138", "catballotbox.go:41-75", "tree.go:394-424"]}
{"id": "C140", "title": "Several forests in one file are read back one by one", "statement": "Forests written one after the other with a ForestWriter to the same file come back one by one from repeated calls of ReadForest on one reader, each with its target, intercept and trees, followed by io.EOF.", "quantifier": "all lists of forests the format can hold, all orders of map keys when writing, all number formats that read back", "why_tests_cant": "the reader peeks one byte to decide whether a forest ends; tests read one forest per file, and the outcome depends on which of the forests have headers and trees", "anchors": ["forestreader.go:32-69", "forestreader.go:74-156", "forestwriter.go:26-33"]}
{"id": "C141", "title": "Training error of adaptive boosting", "statement": "When a forest is boosted adaptively, the share of training cases its weighted vote gets wrong is at most the product over the trees of 2*sqrt(e*(1-e)), where e is the weight of the cases a tree gets wrong when AdaBoostTarget.Boost is called for it (a factor of 1 for a tree with e >= 1/2); so trees that all beat chance by g bring it below exp(-2*g*g*trees), and in the end to zero.", "quantifier": "every number of cases, categories and trees, every partition into leaves, every order of reading the maps of the ballot box", "why_tests_cant": "Tests boost a few trees on one data set and look at the final error; they cannot show that the bound holds for every sequence of partitions, nor that it fails when the trees are grown on samples.", "anchors": ["adaboosttarget.go:20-27", "adaboosttarget.go:89-111", "adaboosttarget.go:115-159", "catballotbox.go:35-75", "growforest/growforest.go:678-690"]}
{"id": "C142", "title": "applyforest on a forest file gives what the forest gives in memory", "statement": "Writing a forest with ForestWriter and running applyforest on that file and a data file gives the same error, the same predictions file and the same votes file as voting with the forest in memory on the same data, for every setting of -sum, -mean, -mode, -expit, -preds and -votes.", "quantifier": "all forests, all data files, all flag settings, all orders in which the maps of the writer and of the ballot box are visited", "why_tests_cant": "the chain goes through two text formats, names instead of column numbers and sets instead of bits; tests run it on one data set and compare an error rate, not the files", "anchors": ["applyforest/applyforest.go:30-138", "forestwriter.go:26-105", "forestreader.go:32-156", "featurematrix.go:411-439", "tree.go:394-403"]}
{"id": "C143", "title": "The files of nfold are the folds", "statement": "For every fold, the testing file nfold writes reads back as exactly the cases of that fold and the training file as exactly the cases of the other folds, with the labels, names, kinds and values they had, for the features that are not on the list and have few enough categories (the target is never struck by the list); no case is in two testing files or in both files of a fold, all folds have the same size, stratified folds have the same number of cases of each class, unstratified ones leave out fewer cases than there are folds.  A training file never depends on the cases of its testing file, and the feature matrices do not depend on which other formats are written.", "quantifier": "all matrices, lists, targets, numbers of folds and random draws", "why_tests_cant": "tests split one data set and look at sizes; they cannot show that the cases, labels and values of every file are right for every matrix and every draw, nor that writing one fold leaves the data of the next alone", "anchors": ["utils/nfold/main.go:96-264", "featurematrix.go:106-135", "libsvm.go:150-205"]}
{"id": "C144", "title": "A -blacklist file takes out exactly the features its lines name", "statement": "growforest, nfold and toafm read the file of -blacklist line by line. Whatever its length, with \\n or \\r\\n line ends, blank lines anywhere and any further tab separated columns, the names read are the texts up to the first tab of the lines that are not blank; names written with quotes may hold tabs, quotes and newlines. growforest then offers as candidates exactly the features that are not the target, are not named and pass -blockRE and -includeRE; nfold writes exactly the target and the features that are not named (and within -maxcats). A list is never read in part: one that cannot be read ends the program.", "quantifier": "all list files of these shapes and all matrices with different feature names", "why_tests_cant": "the claim is over every file of lines and every matrix; tests use no list files at all", "anchors": ["growforest/growforest.go:239-307", "utils/nfold/main.go:96-156", "utils/toafm/main.go:36-66"]}
{"id": "C145", "title": "What growforest is told not to use has no influence", "statement": "The features that are not candidates (the target itself, the ones named in the -blacklist file, the ones -blockRE or -includeRE takes out) appear in no split of any tree a goroutine grows, in a tree or a jungle; they get no importance and no depth; their values have no influence on the trees, importances, depths and random draws; and what the trees answer, in memory or read from a forest file, does not depend on these columns of the data they are applied to.", "quantifier": "all matrices, targets (also boosted ones), parameters, random draws, series of trees of a goroutine grown into one another, -blacklist files of any length, and data the trees are applied to", "why_tests_cant": "a test looks at one forest and one matrix; a leak of the target or of a blacklisted feature through a shared list or a swapped candidate shows for few draws", "anchors": ["growforest/growforest.go:239-305", "growforest/growforest.go:593-680", "featurematrix.go:148-262", "tree.go:96-334", "node.go:53-88", "splitter.go:24-68"]}
{"id": "C146", "title": "Lines of forest files of other programs", "statement": "A line of a .sf file is read as the keys and values it shows: wherever white space stands around commas, keys, equals signs and texts, with values in quotes or not, with commas in the values, with the keys in any order; of a repeated key the last value counts. A node whose line names a numerical splitter sends the values up to LVALUES left, one that names a categorical splitter sends the categories between the colons of LVALUES left, whatever RVALUES and other keys say.", "quantifier": "all lines made of any number of entries, keys, gaps, quoted and unquoted values of any length; all parsers of numbers", "why_tests_cant": "CloudForest writes its own files in one layout, and the tests read two files; rf-ace, whose format it is, writes others, and no finite set of files covers the positions of blanks, commas and quotes", "anchors": ["forestreader.go:74-156", "forestreader.go:158-201"]}
{"id": "C147", "title": "The names of features and categories do not count", "statement": "Giving the features and the categories other names (different names stay different, the words for a missing value stay as they are) gives the same trees and jungles with the new names: the same splits, random draws, candidates, importances and depths; the same votes, tallies and errors on data renamed alike; and the columns read from renamed words are the renamed columns.", "quantifier": "all matrices, renamings (of features, and of the categories of each feature separately), targets known by the numbers of their values, parameters, random draws, trees and jungles grown before, matrices voted on", "why_tests_cant": "a test has one set of names; an accidental use of a name (an order of a map, a comparison of strings) shows for few names", "anchors": ["featurematrix.go:148-262", "tree.go:96-334", "splitter.go:24-68", "densecatfeature.go:86-97", "densecatfeature.go:360-386", "catballotbox.go:41-119", "catmap.go:21-35"]}
{"id": "C148", "title": "Size of a grown tree", "statement": "A tree grown from n cases with leafSize L has at most max(1, n / L) - 1 splits. Without -splitmissing a tree of s splits has exactly 2 s + 1 nodes, with it exactly 3 s + 1. No node is deeper than n / L whatever MaxDepth says, and at most n - d L cases arrive at a node of depth d.", "quantifier": "all targets, data, parameters, samples of cases (with repetitions) and random choices for which the search is defined (growable, C40)", "why_tests_cant": "tests look at single trees; the bound on memory and on the depth of recursion is a statement over all growths", "anchors": ["tree.go:Tree.Grow", "densenumfeature.go:DenseNumFeature.BestNumSplit", "densecatfeature.go:DenseCatFeature.BestCatSplit"]}
{"id": "C149", "title": "Number of lines of a forest file", "statement": "A tree takes one line of a forest file for its header and one for each of its nodes; a file has at most one line more, for an intercept. So the file of a tree grown from n cases has at most 2 n / leafSize lines. False with -splitmissing: the right branch is written again in place of the missing branch, at every level, so a tree with k splits one right of the other takes at least 3 2^k - 2 node lines.", "quantifier": "all forests whose texts the format can hold; all growths of C148", "why_tests_cant": "a test with a small tree does not show exponential growth of files", "anchors": ["forestwriter.go:ForestWriter.WriteNodeAndChildren", "forestwriter.go:ForestWriter.WriteForest", "tree.go:Tree.Grow"]}
{"id": "C150", "title": "-splitmissing and data without missing values", "statement": "For data without missing values -splitmissing changes nothing that counts: growing makes the same draws, finds the same splits, predictions, importances and depths, and fails where it failed; each split gets an empty missing branch that no case reaches. Votes are the same on all data without missing values, also for the tree that a forest file holds, where the right branch takes the place of the missing branch.", "quantifier": "all targets, parameters, data and other data without missing values, samples, random choices, also runs that panic; all passes over trees that do not look at the missing branch", "why_tests_cant": "tests compare single trees; the claim is about equality of whole runs", "anchors": ["tree.go:Tree.Grow", "node.go:Node.CodedRecurse", "node.go:Node.Recurse", "densenumfeature.go:DenseNumFeature.SplitPoints"]}
{"id": "C151", "title": "-force goes on until a feature that is not constant, and matters only then", "statement": "With force, when BestSplitter returns, either the parent impurity was at most minImp and not negative and nothing was drawn, or all candidates are known to be constant on the cases, or at least mTry candidates were drawn and at least one of them was evaluated and found not constant. If BestSplitter returns without force, it returns the same state with force, unless each of exactly mTry draws came upon a constant feature and a candidate that is not known to be constant was left. When mTry is at least the number of candidates, Grow with and without force returns the same tree, state, panic or non-termination, and so does GrowJungle.", "quantifier": "all targets, impurities, data, cases, candidates, constants known from the parent, mTry, leaf sizes, draws, vetting and out of bag evaluation, all trees and depths", "why_tests_cant": "The interplay of the counters nDrawnConstants, nConstants and lastSample depends on the order of all random draws and on which features are constant in each node; tests fix a seed and a few data sets.", "anchors": ["featurematrix.go:148-262", "tree.go:96-176"]}
{"id": "C152", "title": "A -maxDepth that no tree can reach is no limit", "statement": "Growing a tree from n cases with a depth limit of D and n < leafSize * (D + 2) gives the same as growing it with no limit: the same tree, candidates, out of bag order, scratch space, draws, importances and depths used. At depth D no node has cases enough to be searched for a split, so no draw is made or left out.", "quantifier": "all targets that answer on the cases, arithmetics, data whose splits are applied as they are evaluated, cases, leaf sizes of at least 1, limits, draws and starting states", "why_tests_cant": "That the limit is never met follows from the size of every split of every node of the tree; one search more or less would shift the random draws of all later nodes.", "anchors": ["tree.go:96-176", "featurematrix.go:148-262"]}
{"id": "C153", "title": "Recording importances and depths does not change the forest", "statement": "If Grow returns a tree and a state, then without the records of importances and depths it returns the same tree and, apart from the records, the same state; so do all the trees a goroutine grows one after the other, and GrowJungle. If the records have a place for every candidate, the outcome with and without records is the same also for panics and non-termination, so it does not depend on what was recorded before.", "quantifier": "all targets, data, candidates, parameters, cases, used or new trees, earlier records, draws, numbers of trees and levels", "why_tests_cant": "It is a statement about pairs of runs over all trees; tests compare at most a few forests, and the importances are collected in almost all of them.", "anchors": ["tree.go:96-176", "tree.go:178-334", "growforest/growforest.go:593-680"]}
