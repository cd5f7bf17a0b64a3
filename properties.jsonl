{"id": "C01", "title": "permute applies the permutation", "statement": "Calling permute(container, p) where p is a permutation of 0..n-1 terminates, does not throw, and leaves container[i] equal to the old container[p[i]] for every i.", "quantifier": "every container length, every element type/content, every permutation of the indices", "why_tests_cant": "Unit tests sample a few literals; the claim ranges over all n! permutations of every length n; the in-place cycle chasing only goes wrong on particular cycle structures.", "anchors": ["incremental_calibration/include/aslam/calibration/algorithms/permute.tpp: permute"]}
{"id": "C02", "title": "permute never loses or duplicates an element and rejects bad index vectors", "statement": "Whatever index vector is given, when permute returns or throws the container is still a rearrangement of its original content; a length mismatch throws OutOfBoundException before anything is touched; an index >= size throws OutOfBoundException once reached; a call that returns normally was given only in-range indices.", "quantifier": "every container and every index vector (permutation or not)", "why_tests_cant": "Unit tests sample a few literals; the claim ranges over arbitrary malformed index vectors.", "anchors": ["incremental_calibration/include/aslam/calibration/algorithms/permute.tpp: permute"]}
{"id": "C03", "title": "permute: exactly which index vectors make it return, throw or loop for ever", "statement": "With as many indices as elements, permute returns iff every entry is in range and, from every position i, following the index vector comes to a position >= i. Otherwise consider the first position where this fails: if its entry is out of range the call throws OutOfBoundException, else it never returns. So it returns for distinct in-range entries, but not, as a caller would expect, for all in-range entries: {0,0} loops for ever.", "quantifier": "every container and every index vector of the same length", "why_tests_cant": "Non-termination cannot be observed by a finite test.", "anchors": ["incremental_calibration/include/aslam/calibration/algorithms/permute.tpp: permute"]}
{"id": "C04", "title": "OptimizationProblem: linear index enumerates every design variable exactly once, group by group", "statement": "In every state reachable through the public API, designVariable(i) for i=0..numDesignVariables()-1 returns the concatenation, in groups ordering, of the groups' variable vectors, each variable of the problem exactly once; any index >= numDesignVariables() throws OutOfBoundException; getGroupId(designVariable(i)) is the group the variable was added to; asking for the group of an unknown variable or for an unknown group throws.", "quantifier": "every history of API calls and every index", "why_tests_cant": "Unit tests sample a few literals; the claim ranges over every interleaving of add/permute/reorder/clear calls.", "anchors": ["incremental_calibration/src/core/OptimizationProblem.cpp: designVariable, getGroupId, addDesignVariable, setGroupsOrdering, permuteDesignVariables"]}
{"id": "C05", "title": "OptimizationProblem: error terms only refer to design variables of the problem", "statement": "In every reachable state every design variable of every contained error term is contained in the problem, errorTerm(i) for i<numErrorTerms() returns each error term exactly once, and any larger index throws.", "quantifier": "every history of API calls", "why_tests_cant": "Unit tests sample a few literals; the claim ranges over every call history.", "anchors": ["incremental_calibration/src/core/OptimizationProblem.cpp: addErrorTerm, errorTerm, isErrorTermInProblem"]}
{"id": "C06", "title": "OptimizationProblem: add operations have exact effects and strong exception safety", "statement": "addDesignVariable throws NullPointerException on null, InvalidOperationException on a variable already present, otherwise appends the variable to its group (creating the group at the end of the ordering if new) and changes nothing else; addErrorTerm throws on null, on a duplicate and if some of its variables is absent, otherwise appends it. A throwing call leaves the problem unchanged.", "quantifier": "every reachable state and every argument", "why_tests_cant": "Unit tests sample a few literals; the claim ranges over every state/argument combination, in particular re-adding under another group.", "anchors": ["incremental_calibration/src/core/OptimizationProblem.cpp: addDesignVariable, addErrorTerm"]}
{"id": "C07", "title": "setGroupsOrdering accepts exactly the rearrangements of the current groups", "statement": "In both problem classes setGroupsOrdering(o) succeeds iff o lists every current group id exactly once; on success the ordering becomes o and the set of variables, groups and error terms is unchanged; otherwise it throws OutOfBoundException and nothing changes.", "quantifier": "every reachable state and every vector of group ids", "why_tests_cant": "Unit tests sample a few literals; the claim ranges over every id vector (wrong length, unknown ids, duplicates).", "anchors": ["incremental_calibration/src/core/OptimizationProblem.cpp: setGroupsOrdering", "incremental_calibration/src/core/IncrementalOptimizationProblem.cpp: setGroupsOrdering"]}
{"id": "C08", "title": "Group dimension accounting", "statement": "getGroupDim(g) is the sum of minimalDimensions() over the active variables of group g; the sum over all groups of the ordering equals the total active dimension of all variables enumerated by designVariable(i); unknown groups throw OutOfBoundException.", "quantifier": "every reachable state of both problem classes, every activity/dimension assignment", "why_tests_cant": "Unit tests sample a few literals; the claim ranges over every state and activity flag combination.", "anchors": ["incremental_calibration/src/core/OptimizationProblem.cpp: getGroupDim", "incremental_calibration/src/core/IncrementalOptimizationProblem.cpp: getGroupDim"]}
{"id": "C09", "title": "saveDesignVariables/restoreDesignVariables is an exact undo of value changes", "statement": "After saveDesignVariables(), any sequence of value updates on design variables, and any later additions, restoreDesignVariables() gives every variable that was in the problem at save time exactly its saved value and touches no other variable.", "quantifier": "every reachable problem, every store of values, every sequence of updates", "why_tests_cant": "Unit tests sample a few literals; the claim ranges over every update history between save and restore.", "anchors": ["incremental_calibration/src/core/OptimizationProblem.cpp: saveDesignVariables, restoreDesignVariables", "incremental_calibration/src/core/IncrementalOptimizationProblem.cpp: saveDesignVariables, restoreDesignVariables"]}
{"id": "C10", "title": "Permutation entry points of both optimization problems only reorder within their scope", "statement": "permuteDesignVariables(p,g) with a permutation p reorders group g by p and leaves other groups, the ordering, memberships and error terms unchanged; permuteErrorTerms(p) reorders only the error terms; an unknown group throws and changes nothing; even a failing call keeps every membership. The same holds for permuteDesignVariables and permuteOptimizationProblems of the incremental problem.", "quantifier": "every reachable state and index vector", "why_tests_cant": "Unit tests sample a few literals; the claim ranges over all permutations and states.", "anchors": ["incremental_calibration/src/core/OptimizationProblem.cpp: permuteErrorTerms, permuteDesignVariables"]}
{"id": "C11", "title": "IncrementalOptimizationProblem: exact reference counting", "statement": "In every state reached by successful add/remove/permute/reorder/clear calls over immutable batches, a design variable is in the problem iff some contained batch contains it, its count is the number of contained batches containing it, and it sits in exactly one group, the one every containing batch assigns to it.", "quantifier": "every history of successful operations and every batch content", "why_tests_cant": "Unit tests sample a few literals; the claim ranges over every interleaving of overlapping batches being added and removed.", "anchors": ["incremental_calibration/src/core/IncrementalOptimizationProblem.cpp: add, remove, isDesignVariableInProblem"]}
{"id": "C12", "title": "IncrementalOptimizationProblem: add followed by remove restores the exact problem state", "statement": "If add(batch) succeeds then remove(batch) of that batch gives back exactly the previous list of batches, counts, group contents (with their order) and groups ordering. Removing a null pointer, an absent batch or a position beyond the last batch throws and changes nothing.", "quantifier": "every reachable state and batch not already contained", "why_tests_cant": "Unit tests sample a few literals; the claim ranges over every overlap pattern between the new batch and the old ones.", "anchors": ["incremental_calibration/src/core/IncrementalOptimizationProblem.cpp: add, remove"]}
{"id": "C13", "title": "IncrementalOptimizationProblem: flat indices enumerate variables and error terms exactly once", "statement": "designVariable(i), i<numDesignVariables(), enumerates each contained variable exactly once in groups ordering; errorTerm(i), i<numErrorTerms(), enumerates the batches' error terms in batch order; larger indices throw OutOfBoundException, and so do positions of absent batches and unknown groups; the group of an unknown variable is an InvalidOperationException.", "quantifier": "every reachable state and index", "why_tests_cant": "Unit tests sample a few literals; the claim ranges over every state, including batches without error terms.", "anchors": ["incremental_calibration/src/core/IncrementalOptimizationProblem.cpp: designVariable, errorTerm, getGroupId, getErrorIdx"]}
{"id": "C14", "title": "IncrementalOptimizationProblem: no error term is contained twice", "statement": "In every state reached by successful operations no error term occurs in two contained batches or twice in the flat enumeration; adding a batch that shares an error term with a contained one throws InvalidOperationException.", "quantifier": "every history", "why_tests_cant": "Unit tests sample a few literals; the claim ranges over every history of adds with shared error terms.", "anchors": ["incremental_calibration/src/core/IncrementalOptimizationProblem.cpp: add, isErrorTermInProblem"]}
{"id": "C15", "title": "What a failed IncrementalOptimizationProblem::add leaves behind", "statement": "A throwing add leaves the batches and the value backup unchanged, removes no variable and changes no group; a null batch, and a batch whose conflict is on its very first variable in an existing group, leave no trace; in general exactly the variables enumerated before the first conflict (all, if the failure is a shared error term) stay with one reference more, and the new groups of these and of the conflicting variable stay in the ordering. Not guaranteed (counterexample proved): that a throwing add has no effect; it fails for both causes of failure.", "quantifier": "every state and failing argument", "why_tests_cant": "Unit tests sample a few literals; the claim ranges over every failing argument/state pair.", "anchors": ["incremental_calibration/src/core/IncrementalOptimizationProblem.cpp: add"]}
{"id": "C16", "title": "Removing batches is order independent", "statement": "Removing two different contained batches in either order gives the same membership, reference counts and remaining batch sequence; removing all batches one by one in any order gives the empty problem.", "quantifier": "every reachable state and removal order", "why_tests_cant": "Unit tests sample a few literals; the claim ranges over all removal orders.", "anchors": ["incremental_calibration/src/core/IncrementalOptimizationProblem.cpp: remove"]}
{"id": "C17", "title": "What clear makes the incremental problem forget", "statement": "clear() removes all batches, variables, error terms, groups and the ordering; the value backup survives: restoreDesignVariables() does after clear() exactly what it did before, also for variables that are no longer in the problem, and saving the empty problem erases nothing. OptimizationProblem::clear() also forgets the backup. Not guaranteed (counterexample proved): that a restore after clear() has no effect.", "quantifier": "every reachable state", "why_tests_cant": "Unit tests sample a few literals; the claim ranges over every prior history.", "anchors": ["incremental_calibration/src/core/IncrementalOptimizationProblem.cpp: clear, restoreDesignVariables", "incremental_calibration/src/core/OptimizationProblem.cpp: clear"]}
{"id": "C18", "title": "Removing a batch that was changed after it was added", "statement": "A batch not changed after add() is removed cleanly. If the batch object has become any other problem, remove() returns, takes the batch out, and afterwards a variable is reported exactly if the number of contained batches with it, as they were when added, is not zero (variables not in the changed batch) respectively not one (variables in it): a variable added to the batch in the meantime is reported for ever, in group 0 and with count 2^64-1, and one it lost stays. Not guaranteed (counterexample proved): that the reference counts stay right.", "quantifier": "every mutation of a contained batch", "why_tests_cant": "Unit tests sample a few literals; the claim ranges over every mutation schedule.", "anchors": ["incremental_calibration/src/core/IncrementalOptimizationProblem.cpp: remove"]}
{"id": "C19", "title": "IncrementalEstimator: acceptance rule", "statement": "addBatch(b, force) reports batchAccepted iff force, or the solution passed the validity check (when enabled: fewer than maxIterations iterations and a decreased cost) and either the information gain exceeds infoGainDelta or the numerical rank of the marginal block increased; the batch is in the problem afterwards iff it is accepted. Before the first accepted batch all statistics are the initial ones (rank -1), so the first valid batch is accepted.", "quantifier": "every estimator state, batch, option set and optimizer/solver outcome", "why_tests_cant": "Unit tests sample a few literals; the claim ranges over every combination of solver outcome and options.", "anchors": ["incremental_calibration/src/core/IncrementalEstimator.cpp: addBatch"]}
{"id": "C20", "title": "IncrementalEstimator: a rejected batch leaves no trace", "statement": "When addBatch rejects a batch, every design variable of the problem has its value from before the call, the problem (batches, counts, groups, ordering) and all published statistics (rank, singular values, basis, covariance, information gain, ...) are exactly as before the call.", "quantifier": "every reachable estimator state, batch and optimizer behaviour", "why_tests_cant": "Unit tests sample a few literals; the claim ranges over arbitrary optimizer side effects on the values and every problem state.", "anchors": ["incremental_calibration/src/core/IncrementalEstimator.cpp: addBatch, restoreLinearSolver"]}
{"id": "C21", "title": "IncrementalEstimator: the marginalised group is always the trailing column block", "statement": "Whenever the optimizer is run, the marginalised group is last in the groups ordering and marginalStartIndex is the total active dimension of all other groups, so columns [start, total) are exactly those of the marginalised variables.", "quantifier": "every problem state that contains the group", "why_tests_cant": "Unit tests sample a few literals; the claim ranges over every group layout.", "anchors": ["incremental_calibration/src/core/IncrementalEstimator.cpp: orderMarginalizedDesignVariables, addBatch, reoptimize"]}
{"id": "C22", "title": "IncrementalEstimator: information gains telescope", "statement": "Over any sequence of addBatch calls without removal the sum of the information gains of accepted batches equals half the difference of the final and initial log2 sum of singular values; rejected batches contribute nothing.", "quantifier": "every sequence of batches and solver outcomes", "why_tests_cant": "Unit tests sample a few literals; the claim ranges over every history length.", "anchors": ["incremental_calibration/src/core/IncrementalEstimator.cpp: addBatch, getInformationGain, getSingularValuesLog2Sum"]}
{"id": "C23", "title": "What a throwing addBatch leaves behind", "statement": "A throwing addBatch never changes the published statistics or the options; values change only if the optimizer or the analysis threw, and only of variables in the problem; which exception is thrown when is characterised; an incompatible batch is not kept, a compatible one stays in the problem unless only rebuilding the solver after a rejection failed, in which case the rejection is complete. If no variable of the marginalised group is in the problem, every addBatch of a batch without one throws InvalidOperation, for ever. Not guaranteed (counterexample proved): that a throwing addBatch leaves the estimator unchanged.", "quantifier": "every state and failing batch", "why_tests_cant": "Unit tests sample a few literals; the claim ranges over every failing batch.", "anchors": ["incremental_calibration/src/core/IncrementalEstimator.cpp: addBatch, orderMarginalizedDesignVariables"]}
{"id": "C24", "title": "IncrementalEstimator: removeBatch", "statement": "removeBatch(b) of a batch that is not contained changes nothing; of a contained batch it removes exactly the first occurrence and then re-estimates; when it was the last batch carrying the marginalised group the batch is removed but the call throws.", "quantifier": "every reachable state and argument", "why_tests_cant": "Unit tests sample a few literals; the claim ranges over every state.", "anchors": ["incremental_calibration/src/core/IncrementalEstimator.cpp: removeBatch, reoptimize"]}
{"id": "C25", "title": "Linear solver layout after a rejection is a disjoint gap-free tiling", "statement": "After a rejection the active design variables get block indices 0..k-1 in enumeration order and column ranges that tile [0, total active dimension) without gaps or overlaps, and error terms get row ranges tiling [0, total error dimension).", "quantifier": "every problem content", "why_tests_cant": "Unit tests sample a few literals; the claim ranges over every dimension/activity assignment.", "anchors": ["incremental_calibration/src/core/IncrementalEstimator.cpp: restoreLinearSolver"]}
{"id": "C26", "title": "Grid: valid cell indices map one-to-one onto the cell storage", "statement": "For a grid with cell counts n_1..n_M the linear index is a bijection between index tuples with 0<=idx_i<n_i and positions 0..prod(n_i)-1 of the cell array, so two valid indices never alias and none is out of the array.", "quantifier": "every dimension M, every cell count vector, every index", "why_tests_cant": "Unit tests sample a few literals; the claim ranges over every shape.", "anchors": ["incremental_calibration/include/aslam/calibration/data-structures/Grid.tpp: computeLinearIndex, getCell"]}
{"id": "C27", "title": "Grid: incrementIndex enumerates every cell exactly once", "statement": "Starting from the zero index and calling incrementIndex until it equals getNumCells() visits every valid index exactly once and then stops.", "quantifier": "every dimension and cell count vector", "why_tests_cant": "Unit tests sample a few literals; the claim ranges over every shape.", "anchors": ["incremental_calibration/include/aslam/calibration/data-structures/Grid.tpp: incrementIndex"]}
{"id": "C28", "title": "Grid: every in-range point is mapped to the cell that contains it", "statement": "getIndex(p) for an in-range point returns a valid index whose half-open cell contains p (the maximum belongs to the last cell); out-of-range points throw OutOfBoundException; construction throws exactly for non-positive resolution, empty range or resolution larger than the range.", "quantifier": "every exact-arithmetic grid and point", "why_tests_cant": "Unit tests sample a few literals; the claim ranges over all points of the continuum; stated for integers and for reals in exact arithmetic; see C59 for IEEE doubles.", "anchors": ["incremental_calibration/include/aslam/calibration/data-structures/Grid.tpp: Grid, getIndex, isInRange"]}
{"id": "C29", "title": "Grid: cell centre round trip, and where it fails", "statement": "For a valid index i of a real-valued grid getIndex(getCoordinates(i)) = i whenever the centre does not exceed the maximum, in particular when the resolution divides the range; otherwise getIndex throws (a last cell whose centre is outside exists). For integral grids it holds for non-negative minima; with a negative minimum truncation moves the centre to the next cell.", "quantifier": "every grid and valid index", "why_tests_cant": "Unit tests sample a few literals; the claim ranges over every resolution/range pair.", "anchors": ["incremental_calibration/include/aslam/calibration/data-structures/Grid.tpp: getIndex, getCoordinates"]}
{"id": "C30", "title": "Grid: which indices are rejected", "statement": "getCell throws OutOfBound exactly when some component is at least its cell count; for any other index, negative components included, it is undefined if the position the strides give is negative and otherwise the cell at that position, which belongs to exactly one valid index; computing coordinates throws for exactly the same indices. Not guaranteed (counterexample proved): that a negative component is rejected: it can alias another cell.", "quantifier": "every integer index vector", "why_tests_cant": "Unit tests sample a few literals; the claim ranges over every negative index vector; the effect is undefined behaviour.", "anchors": ["incremental_calibration/include/aslam/calibration/data-structures/Grid.tpp: isValidIndex, getCell, getCoordinates"]}
{"id": "C31", "title": "Histogram: counts equal the number of samples per bin", "statement": "After adding any list of samples to a fresh histogram every bin holds the number of in-range samples falling in it, getSum() is the number of in-range samples, out-of-range samples change nothing, and the result does not depend on the order of samples.", "quantifier": "every sample list, histogram geometry", "why_tests_cant": "Unit tests sample a few literals; the claim ranges over every sample sequence.", "anchors": ["incremental_calibration/include/aslam/calibration/statistics/Histogram1v.tpp: addSample, addSamples, getSum", "incremental_calibration/include/aslam/calibration/statistics/HistogramMv.tpp: addSample, addSamples"]}
{"id": "C32", "title": "Histogram summary statistics", "statement": "getNormalized() sums to 1 for a non-empty histogram; getMode is a bin centre with maximal count; getMedian is a bin centre whose cumulative count reaches at least half; getMean is the count-weighted average of bin centres and lies within the range of the centres; getVariance is the unbiased weighted variance for at least two samples.", "quantifier": "every non-empty histogram", "why_tests_cant": "Unit tests sample a few literals; the claim ranges over every histogram content.", "anchors": ["incremental_calibration/include/aslam/calibration/statistics/Histogram1v.tpp: getMean, getMedian, getMode, getVariance, getNormalized"]}
{"id": "C33", "title": "VectorDesignVariable: revertUpdate undoes exactly the last change and parameters round-trip", "statement": "revertUpdate() after update(dp), setValue(v) or setParameters(p) gives back the value before that call, for any history; getParameters after setParameters(p) returns p; a wrong-sized parameter matrix throws OutOfBoundException and changes nothing; getMinimalDimensions is the dimension.", "quantifier": "every value, update and call history", "why_tests_cant": "Unit tests sample a few literals; the claim ranges over every history.", "anchors": ["incremental_calibration/include/aslam/calibration/data-structures/VectorDesignVariable.tpp"]}
{"id": "C34", "title": "EstimatorML<NormalDistribution<1>>: running estimate equals the batch formula and is order independent", "statement": "After any list of at least one and fewer than 2^32 points (exact arithmetic) the mean is the arithmetic mean and the variance the population variance when positive; the estimate is flagged valid iff the variance is positive; adding points one by one or as a range, and in any order, gives the same result; reset forgets the past. Not guaranteed (counterexample proved): the same for any number of points; with 2^32+1 of them the squared count has wrapped and the estimate is declared invalid.", "quantifier": "every list of points", "why_tests_cant": "Unit tests sample a few literals; the claim ranges over every list and order; exact arithmetic only.", "anchors": ["incremental_calibration/src/statistics/EstimatorMLNormal1v.cpp"]}
{"id": "C35", "title": "NormalDistribution<1>: cached quantities are consistent and rejected variances change nothing", "statement": "In every reachable state variance>0, precision*variance=1, stddev^2=variance and the normaliser matches; setVariance(v<=0) throws BadArgumentException and leaves the distribution unchanged; KL divergence of a distribution to itself is 0 and never negative; Mahalanobis distance is non-negative and 0 only at the mean; pdf = exp(logpdf). The density has integral 1 over the line, its mean and variance are those that getMean and getVariance return, and KLDivergence is the integral of p (ln p - ln q). In a program with any number of distributions each has the mean written last to it and its last positive variance, also through assignments.", "quantifier": "every reachable distribution, every argument", "why_tests_cant": "Unit tests sample a few literals; the claim ranges over the continuum.", "anchors": ["incremental_calibration/src/statistics/NormalDistribution1v.cpp"]}
{"id": "C36", "title": "What a rejected covariance does to NormalDistribution<M>", "statement": "A rejected covariance leaves mean, covariance, precision, determinant, normaliser and density as they were; one rejected for asymmetry changes nothing at all. An accepted covariance leaves factor, precision and determinant consistent with it. Not guaranteed (counterexample proved): that the Cholesky factor used for sampling is unchanged by a symmetric matrix that is not positive definite; getCovariance and getSample then disagree.", "quantifier": "every distribution and rejected matrix", "why_tests_cant": "Unit tests sample a few literals; the claim ranges over every failing matrix.", "anchors": ["incremental_calibration/include/aslam/calibration/statistics/NormalDistributionMv.tpp: setCovariance, getSample"]}
{"id": "C37", "title": "UniformDistribution: support, density and moments", "statement": "setSupport throws iff min>=max leaving the support unchanged; pdf is 1/(max-min) inside and 0 outside (pmf 1/(max-min+1) for integers and sums to 1 over the support); the variance is that of the support; the mode is never defined; getMean and getMedian return half the width, in every coordinate, which is the midpoint exactly when the support starts at 0. Not guaranteed (counterexample proved): that the mean is the midpoint, or even in the support.", "quantifier": "every support and point", "why_tests_cant": "Unit tests sample a few literals; the claim ranges over every support.", "anchors": ["incremental_calibration/include/aslam/calibration/statistics/UniformDistribution1v.tpp"]}
{"id": "C38", "title": "Multivariate uniform covariance", "statement": "Off the diagonal the covariance returned is 0; the diagonal entry i is that of the box, w_i^2/12, exactly when w_i^2 equals the squared product of all widths; in particular for M=1. Not guaranteed (counterexample proved): that the covariance of the box is returned.", "quantifier": "every support box", "why_tests_cant": "Unit tests sample a few literals; the claim ranges over every dimension and box.", "anchors": ["incremental_calibration/include/aslam/calibration/statistics/UniformDistributionMv.tpp: getCovariance, getMean"]}
{"id": "C39", "title": "GammaDistribution KL divergence", "statement": "The divergence from a distribution to itself is 0, and the one returned agrees with the Kullback-Leibler divergence, the integral of p ln(p/q) over the positive half line, exactly when (a_q-1)(psi(a_q)-psi(a_p))=0. Not guaranteed (counterexample proved): agreement in general; the value returned can even be negative.", "quantifier": "every pair of gamma distributions, every digamma function", "why_tests_cant": "Unit tests sample a few literals; the claim ranges over the continuum of parameters.", "anchors": ["incremental_calibration/include/aslam/calibration/statistics/GammaDistribution.tpp: KLDivergence"]}
{"id": "C40", "title": "Randomizer: samples stay in their documented range", "statement": "For every outcome of the underlying generator, in exact arithmetic: sampleUniform(min,max) lies in [min,max] (an integer for integral types whose width does not overflow; undefined if it does) and throws iff max<=min; sampleNormal uses the first pair with 0<s<1 and ends iff there is one; sampleCategorical returns an index < number of categories; samplePoisson, sampleExponential, sampleGeometric and sampleGamma give the values of their inversion or rejection methods, never negative, and throw exactly for parameters outside their domain. In doubles sampleUniform is never below min and never above min+(max-min) as rounded, sampleUniform() is in [0,1], and sampleGeometric is defined exactly when the quotient fits its type. Not guaranteed (counterexample proved): that in doubles sampleUniform stays below max, that sampleNormal for integral types ever ends, and that sampleGeometric is defined for tiny probabilities.", "quantifier": "every generator output stream", "why_tests_cant": "Unit tests sample a few literals; the claim ranges over every stream of the generator, including its extreme values.", "anchors": ["incremental_calibration/include/aslam/calibration/statistics/Randomizer.tpp"]}
{"id": "C41", "title": "sampleCategorical and categories of probability zero", "statement": "If the probabilities sum to exactly 1 and the number drawn is not 0 the returned category has positive probability. Not guaranteed (counterexample proved): the same when the number drawn is 0 (category 0 is returned whatever its probability) or the sum is 1 only up to the tolerance of the constructor.", "quantifier": "every probability vector and generator output", "why_tests_cant": "The failing output has probability 1/RAND_MAX; a test would hardly ever see it.", "anchors": ["incremental_calibration/include/aslam/calibration/statistics/Randomizer.tpp: sampleCategorical"]}
{"id": "C42", "title": "LogFactorial and integer LogGamma", "statement": "LogFactorialFunction(n) = ln(n!) for every n, LogGammaFunction<size_t>(n) = ln((n-1)!) for n>=1 and throws for 0.", "quantifier": "every natural number", "why_tests_cant": "Unit tests sample a few literals; the claim ranges over every n.", "anchors": ["incremental_calibration/src/functions/LogFactorialFunction.cpp", "incremental_calibration/src/functions/LogGammaFunction.cpp"]}
{"id": "C43", "title": "Transformations: getInverse undoes the transformation", "statement": "For a 2d/3d transformation set from pose parameters, getInverse() applied to the transform of a point gives back the point and vice versa, distances are preserved, and inverse() in place agrees with getInverse(). A copy and an assigned object cannot be told from the original: same matrix, and same effect on every point, also of the inverse, of the inverse of the inverse and so on.", "quantifier": "all poses and points", "why_tests_cant": "Unit tests sample a few literals; the claim ranges over the continuum of poses.", "anchors": ["incremental_calibration/include/aslam/calibration/geometry/Transformation2d.tpp", "incremental_calibration/include/aslam/calibration/geometry/Transformation3d.tpp"]}
{"id": "C44", "title": "Inverting a transformation twice", "statement": "Inverting twice gives the original back exactly when the rotation leaves the translation fixed (in 2D: no rotation or no translation); the result of any number of inversions is characterised. Not guaranteed (counterexample proved): that a second inversion undoes the first.", "quantifier": "all poses", "why_tests_cant": "Unit tests sample a few literals; the claim ranges over the continuum of poses.", "anchors": ["incremental_calibration/include/aslam/calibration/geometry/Transformation2d.tpp: inverse, getInverse", "incremental_calibration/include/aslam/calibration/geometry/Transformation3d.tpp: inverse"]}
{"id": "C45", "title": "computeSumLogDiagR", "statement": "For a valid column range the function returns the sum of log2|R(i,i)| over the inclusive range, skipping entries not larger than epsilon in magnitude; it throws OutOfBoundException iff colBegin>=colEnd or colEnd>=cols; splitting a range adds up.", "quantifier": "every matrix and range", "why_tests_cant": "Unit tests sample a few literals; the claim ranges over every matrix and range.", "anchors": ["incremental_calibration/include/aslam/calibration/algorithms/matrixOperations.tpp"]}
{"id": "C46", "title": "Calibrators: every measurement is processed exactly once", "statement": "For every stream of measurements, each measurement given to the time-delay / car calibrator is either still pending or was used in exactly one processed window, in arrival order; a window is only processed when its duration reached windowDuration; the histories of information gain and variables grow by exactly one entry per processed window.", "quantifier": "every measurement stream and option set", "why_tests_cant": "Unit tests sample a few literals; the claim ranges over every stream.", "anchors": ["incremental_calibration_examples/incremental_calibration_examples_time_delay/src/algo/Calibrator.cpp: addPoseMeasurement, addMeasurement, addMeasurements, clearMeasurements", "incremental_calibration_examples/incremental_calibration_examples_car/src/algo/CarCalibrator.cpp: addMeasurement, addMeasurements"]}
{"id": "C47", "title": "OdometryDesignVariables: what is calibrated and exported", "statement": "In all three examples addToBatch adds exactly the listed variables, once and in order, active as configured; getParameters lists their values in this order, each exactly once, in the time-delay and egomotion examples. In the car example entry 11 is the DMI delay instead of the last steering coefficient, entry 21 is never set, and all others are as listed. Not guaranteed (counterexample proved): that the car's getParameters exports every calibrated parameter.", "quantifier": "every parameter value", "why_tests_cant": "Unit tests sample a few literals; the claim ranges over all values.", "anchors": ["incremental_calibration_examples/incremental_calibration_examples_time_delay/src/design-variables/OdometryDesignVariables.cpp", "incremental_calibration_examples/incremental_calibration_examples_car/src/design-variables/OdometryDesignVariables.cpp"]}
{"id": "C48", "title": "CameraCalibrator: batching and observation bookkeeping", "statement": "A batch is handed to the estimator exactly every batchNumImages accepted images; images before geometry initialisation are refused and initialisation is permanent; while the estimator does not throw no image is lost or used twice; getTransformation is defined exactly for indices in range, and is the pose of the observation with the same index as long as at most one batch was accepted. Not guaranteed (counterexample proved): the latter after two accepted batches: observations are inserted at the front.", "quantifier": "every image stream", "why_tests_cant": "Unit tests sample a few literals; the claim ranges over every stream.", "anchors": ["incremental_calibration_examples/incremental_calibration_examples_camera/src/camera/CameraCalibrator.cpp: addImage, processBatch, getTransformation"]}
{"id": "C49", "title": "bestQuat returns the equivalent quaternion closest to the previous one", "statement": "bestQuat(p,c) is c or -c, represents the same rotation as c, is at distance at most that of the other sign from p, and lies in the same hemisphere as p.", "quantifier": "all quaternions", "why_tests_cant": "Unit tests sample a few literals; the claim ranges over the continuum.", "anchors": ["incremental_calibration_examples/incremental_calibration_examples_car/src/algo/bestQuat.cpp", "incremental_calibration_examples/incremental_calibration_examples_time_delay/src/algo/bestQuat.cpp"]}
{"id": "C50", "title": "Error-term Jacobians are the derivatives of the residuals", "statement": "For the 2D laser range finder motion and observation error terms and the car's steering, velocity and wheel error terms the Jacobians handed to the optimizer are the derivative of the evaluated residual along every differentiable motion of the variables, wherever the residual is differentiable and the Jacobian defined (steering: the wheel does not move exactly sideways; a front wheel: it rolls forwards). For a front wheel rolling backwards the derivative is the Jacobian with the sign of the speed row of the velocity block changed. Not guaranteed (counterexample proved): that the Jacobian is right for a front wheel rolling backwards.", "quantifier": "all values of the design variables and measurements", "why_tests_cant": "Unit tests sample a few literals; the claim ranges over the continuum; numeric differentiation in tests samples points with tolerance.", "anchors": ["incremental_calibration_examples/incremental_calibration_examples_2dlrf/src/2dlrf/ErrorTermMotion.cpp", "incremental_calibration_examples/incremental_calibration_examples_2dlrf/src/2dlrf/ErrorTermObservation.cpp", "incremental_calibration_examples/incremental_calibration_examples_car/src/error-terms/ErrorTermVelocities.cpp", "incremental_calibration_examples/incremental_calibration_examples_car/src/error-terms/ErrorTermWheel.cpp", "incremental_calibration_examples/incremental_calibration_examples_car/src/error-terms/ErrorTermSteering.cpp"]}
{"id": "C51", "title": "The weight of an error term is that of its first covariance", "statement": "Whatever covariances are set after construction, the weighted squared error is the one of the covariance given to the constructor, while getCovariance returns the one set last. Not guaranteed (counterexample proved): that setCovariance changes the weight.", "quantifier": "every error term and covariance", "why_tests_cant": "Unit tests sample a few literals; the claim ranges over every covariance.", "anchors": ["incremental_calibration_examples/incremental_calibration_examples_2dlrf/src/2dlrf/ErrorTermMotion.cpp: setCovariance"]}
{"id": "C52", "title": "Geodetic frame conversions are rigid and mutually inverse", "statement": "enu2ecef/ned2ecef rotate orthonormally about the reference, ecef2enu o enu2ecef = id, and wgs84ToEcef is injective in height direction along the ellipsoid normal; heights of zero lie on the ellipsoid whose equator is 6378137 m and whose poles are 6356752.3142 m from the centre (the standard's value to a tenth of a millimetre).", "quantifier": "all coordinates", "why_tests_cant": "Unit tests sample a few literals; the claim ranges over the continuum.", "anchors": ["incremental_calibration_examples/incremental_calibration_examples_car/src/geo/geodetic.cpp"]}
{"id": "C53", "title": "VisionDataAssociation: frame ids and stored frames", "statement": "Stored frames have pairwise different ids, strictly increasing in insertion order; every match leads to the stored frame it was computed for, and it leads back to its reference frame exactly if that frame was stored; reset forgets frames, matches and reference frame and goes on with the numbering. Not guaranteed (counterexample proved): that the reference frame of every match is stored; the first one never is.", "quantifier": "every image stream and matcher outcome", "why_tests_cant": "Unit tests sample a few literals; the claim ranges over every stream.", "anchors": ["incremental_calibration_vision/src/vision/VisionDataAssociation.cpp: addImage, reset"]}
{"id": "C54", "title": "Timestamp is totally ordered and arithmetic is consistent", "statement": "On timestamps that are not NaN the comparison operators agree with each other and form the total order of the values, infinities included, also against doubles; sums and differences are the correctly rounded ones, adding a non-negative duration never gives an earlier time, and (t + d) - d = t whenever t + d is exact. Not guaranteed (counterexample proved): (t + d) - d = t in general, and any order for NaN.", "quantifier": "all timestamps", "why_tests_cant": "Unit tests sample a few literals; the claim ranges over the continuum.", "anchors": ["incremental_calibration/src/base/Timestamp.cpp"]}
{"id": "C55", "title": "IncrementalOptimizationProblem: add succeeds exactly on compatible batches", "statement": "add(b) returns iff no variable of b is already in the problem in another group and no error term of b is already contained; otherwise it throws InvalidOperationException (NullPointerException for null). A successful add appends b, adds exactly b's new variables at the end of their groups, keeps every group id, and only appends to the groups ordering.", "quantifier": "every reachable problem state and every batch", "why_tests_cant": "Unit tests sample a few literals; the claim ranges over all pairs of problem state and batch.", "anchors": ["incremental_calibration/src/core/IncrementalOptimizationProblem.cpp: add"]}
{"id": "C56", "title": "IncrementalOptimizationProblem: no undefined behaviour in any history", "statement": "As long as batches are not mutated after they were added, no sequence of calls, including failing adds, reaches erase(end()) or an out-of-range vector access.", "quantifier": "every history of calls over every set of batches, including calls that throw", "why_tests_cant": "Unit tests sample a few literals; the claim ranges over histories of any length mixing failing and succeeding calls.", "anchors": ["incremental_calibration/src/core/IncrementalOptimizationProblem.cpp: add, remove, permuteDesignVariables, designVariable"]}
{"id": "C57", "title": "IncrementalEstimator: the problem contains exactly the accepted batches", "statement": "In any history of addBatch calls that all return, the problem's batches are those present at the start followed by the accepted ones in call order (up to order if a batch object without error terms is offered twice); rejected ones are absent.", "quantifier": "every sequence of batches, options, solver outcomes", "why_tests_cant": "Unit tests sample a few literals; the claim ranges over sequences of any length with arbitrary acceptance patterns.", "anchors": ["incremental_calibration/src/core/IncrementalEstimator.cpp: addBatch, getNumBatches"]}
{"id": "C58", "title": "IncrementalEstimator: getters agree with the last accepted result", "statement": "After an accepted addBatch and after reoptimize every getter (ranks, tolerances, bases, covariances, singular values, costs, information gain) answers the corresponding field of the returned value, which is what optimizer and linear solver reported; reoptimize does not change the problem; the active variables carry the optimizer's values and all others are untouched.", "quantifier": "every state and solver outcome", "why_tests_cant": "Unit tests sample a few literals; the claim ranges over all solver outcomes.", "anchors": ["incremental_calibration/src/core/IncrementalEstimator.cpp: addBatch, reoptimize, getters"]}
{"id": "C59", "title": "Grid and Histogram with IEEE doubles: lookups never hit undefined behaviour", "statement": "Once a grid of doubles is constructed, looking up any point (NaN and infinities included) returns a cell or throws OutOfBoundException; a point out of range always throws; the computed index is never negative and never exceeds the cell count. Adding a sample to a histogram adds one to one bin, or changes nothing (out of range or exception). Not guaranteed (counterexample proved): that every in-range point has a cell (rounding makes the index equal to the cell count for some), and that the constructor is defined for NaN or overflowing extents.", "quantifier": "every triple of double vectors passed to the constructor and every double point", "why_tests_cant": "Unit tests sample a few literals; the claim ranges over all bit patterns and rounding effects.", "anchors": ["incremental_calibration/include/aslam/calibration/data-structures/Grid.tpp: Grid, getIndex, getCell", "incremental_calibration/include/aslam/calibration/statistics/Histogram1v.tpp: addSample"]}
{"id": "C60", "title": "NormalDistribution<1> and EstimatorML<NormalDistribution<1>> in IEEE doubles: accepted variances", "statement": "In every reachable distribution over doubles the variance is not <= 0: it is positive or NaN. Not guaranteed (counterexample proved): that it is not NaN: a NaN variance is accepted, and the weighted estimator run on an empty range publishes NaN mean and variance flagged as valid.", "quantifier": "every double bit pattern and every reachable distribution", "why_tests_cant": "Unit tests sample a few literals; the claim ranges over all bit patterns.", "anchors": ["incremental_calibration/src/statistics/NormalDistribution1v.cpp: setVariance", "incremental_calibration/src/statistics/EstimatorMLNormal1v.cpp: addPoints"]}
{"id": "C61", "title": "EstimatorML<NormalDistribution<M>>: running estimate, order independence and weighted estimate", "statement": "After any list of points the mean is the component-wise arithmetic mean and the covariance the population covariance matrix; the result does not depend on the order or on the split into calls; the covariance is symmetric; the weighted estimator gives weighted mean and covariance and reports size mismatches.", "quantifier": "every dimension and every list of points and weights", "why_tests_cant": "Unit tests sample a few literals; the claim ranges over lists of any length in any dimension.", "anchors": ["incremental_calibration/include/aslam/calibration/statistics/EstimatorMLNormalMv.tpp: addPoint, addPoints, reset"]}
{"id": "C62", "title": "GammaDistribution: parameters, density, total mass, moments and mode", "statement": "Setters keep the cached normaliser and inverse scale consistent and reject non-positive values without changing anything; for every reachable distribution the density is the textbook one (0 for negative arguments), integrates to 1 given the gamma integral, mean is shape/invScale, variance shape/invScale^2 (proved by integration for integer shapes), and the mode maximises the density.", "quantifier": "every history of setter calls, every argument", "why_tests_cant": "Unit tests sample a few literals; the claim ranges over the continuum of parameters and arguments.", "anchors": ["incremental_calibration/include/aslam/calibration/statistics/GammaDistribution.tpp: GammaDistribution, setShape, setInvScale, pdf, getMean, getMode, getVariance"]}
{"id": "C63", "title": "ChiSquareDistribution: degrees and median approximation", "statement": "The degrees of freedom read back are those given and non-positive ones are rejected; the published median approximation lies strictly between 0 and the mean exactly when degrees > 2/9.", "quantifier": "every degrees of freedom", "why_tests_cant": "Unit tests sample a few literals; the claim ranges over the continuum of parameters.", "anchors": ["incremental_calibration/include/aslam/calibration/statistics/ChiSquareDistribution.tpp: setDegrees, getDegrees, getMedian"]}
{"id": "C64", "title": "Randomizer: the distribution of integral sampleUniform", "statement": "For integral types the value returned is min + round(r/RAND_MAX*(max-min)): for every value the set of generator outputs that give it is the interval of the outputs r with (2j-1) RAND_MAX <= 2 r (max-min) < (2j+1) RAND_MAX. Not guaranteed (counterexample proved): that all values are equally likely: the two end points get only half the outputs of an interior value.", "quantifier": "every support without overflow and every generator output", "why_tests_cant": "Unit tests sample a few literals; the claim ranges over all supports and outputs; the bias is invisible in a handful of samples.", "anchors": ["incremental_calibration/include/aslam/calibration/statistics/Randomizer.tpp: sampleUniform"]}
{"id": "C65", "title": "SampleDistribution::getSamples returns exactly the requested number of samples", "statement": "getSamples(samples, n) replaces whatever was in the vector by exactly n samples, those n successive getSample calls give; if one of them throws, the vector holds the samples before it.", "quantifier": "every n, every distribution, every previous content, every failure point", "why_tests_cant": "Unit tests sample a few literals; the claim ranges over every count and failure point.", "anchors": ["incremental_calibration/include/aslam/calibration/statistics/SampleDistribution.tpp: getSamples"]}
{"id": "C66", "title": "Randomizer: when seeding makes the samples reproducible", "statement": "After setSeed(z) the numbers drawn depend on z only, as long as nobody reseeds and no Randomizer instantiation is default-constructed for the first time; the seed given to the constructor never has an effect, and the first default construction of another instantiation replaces the user's seed by one from the clock. Not guaranteed (counterexample proved): reproducibility in general.", "quantifier": "every sequence of constructions, setSeed calls and draws in a program", "why_tests_cant": "Unit tests sample a few literals; the claim ranges over every interleaving of constructions and draws.", "anchors": ["incremental_calibration/include/aslam/calibration/statistics/Randomizer.tpp: Randomizer, setSeed, getSeed"]}
{"id": "C67", "title": "Inverting a transformation given by its matrix", "statement": "A transformation made from a matrix, or given one by setTransformationMatrix, uses this matrix in transform and gives it back, while after setTransformationMatrix inverse()/getInverse() give exactly what they gave before it, whatever the matrix. Not guaranteed (counterexample proved): that they undo the transformation set; after construction from a matrix they depend on uninitialised memory and may do anything.", "quantifier": "every transformation matrix and every earlier state of the object", "why_tests_cant": "Unit tests sample a few literals; the claim ranges over the continuum of matrices.", "anchors": ["incremental_calibration/include/aslam/calibration/geometry/Transformation2d.tpp: setTransformationMatrix, inverse, getInverse", "incremental_calibration/include/aslam/calibration/geometry/Transformation3d.tpp: setTransformationMatrix, inverse, getInverse"]}
{"id": "C68", "title": "Timestamp: conversion to timespec", "statement": "For times in [0, 2^63) s, tv_sec + tv_nsec*1e-9 is within a nanosecond of the timestamp and 0 <= tv_nsec < 1e9; for negative times that can be converted tv_sec is rounded towards zero and tv_nsec is in (-1e9, 0], again within a nanosecond; the conversion is undefined exactly for NaN, infinite times and times outside the range of tv_sec. Not guaranteed (counterexample proved): normalised nanoseconds for negative times and a defined result for every time.", "quantifier": "every double", "why_tests_cant": "Unit tests sample a few literals; the claim ranges over all doubles.", "anchors": ["incremental_calibration/src/base/Timestamp.cpp: operator timespec"]}
{"id": "C69", "title": "Calibrators: error terms exist exactly for the usable measurements", "statement": "In the time-delay and car calibrators a measurement of a window gives its error terms iff, after adding the current time delay, it lies at least delayBound inside the spline's time range (and passes the cut-off, forward-motion and tolerance tests of its kind); hence no error term evaluates a spline outside its range for any delay within the bound.", "quantifier": "every window of measurements, every delay, bound, option set and estimator state", "why_tests_cant": "Unit tests sample a few literals; the claim ranges over every window and delay.", "anchors": ["incremental_calibration_examples/incremental_calibration_examples_time_delay/src/algo/Calibrator.cpp: addLeftWheelErrorTerms, addRightWheelErrorTerms, addPoseErrorTerms", "incremental_calibration_examples/incremental_calibration_examples_car/src/algo/CarCalibrator.cpp: addVelocitiesErrorTerms, addDMIErrorTerms, addFrontWheelsErrorTerms, addRearWheelsErrorTerms, addSteeringErrorTerms"]}
{"id": "C70", "title": "Car calibrator: which variances weight the wheel errors", "statement": "The error terms made for a window are exactly the specified ones; those of the rear left and right wheels are weighted with the variances configured for the front left and right wheels, so rlwVariance and rrwVariance take effect only if they agree with those. Not guaranteed (counterexample proved): that rlwVariance and rrwVariance weight the rear wheels' error terms.", "quantifier": "every option set and window", "why_tests_cant": "Unit tests sample a few literals; the claim ranges over all option values and windows.", "anchors": ["incremental_calibration_examples/incremental_calibration_examples_car/src/algo/CarCalibrator.cpp: addRearWheelsErrorTerms", "incremental_calibration_examples/incremental_calibration_examples_car/include/aslam/calibration/car/algo/CarCalibratorOptions.h"]}
{"id": "C71", "title": "Calibrators: number of spline segments", "statement": "With distinct first and last time stamps and splineKnotsPerSecond >= 1 the splines of a window get at least one and at most as many segments as poses, and at least splineKnotsPerSecond per second unless there are fewer poses. If the first and the last pose have the same time stamp the number is undefined (division by zero converted to int).", "quantifier": "every list of pose time stamps and every number of knots per second", "why_tests_cant": "Unit tests sample a few literals; the claim ranges over every list of time stamps.", "anchors": ["incremental_calibration_examples/incremental_calibration_examples_time_delay/src/algo/Calibrator.cpp: initSplines", "incremental_calibration_examples/incremental_calibration_examples_car/src/algo/CarCalibrator.cpp: initSplines"]}
{"id": "C72", "title": "Egomotion calibrator: a gap of the reference sensor is fatal", "statement": "While the reference sensor has a pending measurement and fit and estimator succeed, adding a measurement succeeds. Once a window has elapsed without a measurement of the reference sensor, every later addMotionMeasurement throws std::out_of_range and drops its measurement, also those of the reference sensor, for ever; such a state is reachable. Not guaranteed (counterexample proved): that calibration goes on when the reference sensor comes back.", "quantifier": "every later stream of measurements", "why_tests_cant": "Unit tests sample a few literals; the claim ranges over every stream after the gap.", "anchors": ["incremental_calibration_examples/incremental_calibration_examples_egomotion_sensors/src/algo/Calibrator.cpp: addMotionMeasurement, addMeasurement, addMeasurements, initSplines"]}
{"id": "C73", "title": "Calibrators: what a failing add call loses", "statement": "If building the splines throws, only the new measurement is lost; if the estimator throws, the whole pending window is lost too and no gain is recorded. Not guaranteed (counterexample proved): that an add call that throws does not touch the measurements already given.", "quantifier": "every calibrator state and measurement", "why_tests_cant": "Unit tests sample a few literals; the claim ranges over every state and failure point.", "anchors": ["incremental_calibration_examples/incremental_calibration_examples_time_delay/src/algo/Calibrator.cpp: addMeasurement, addMeasurements", "incremental_calibration_examples/incremental_calibration_examples_car/src/algo/CarCalibrator.cpp: addMeasurement, addMeasurements", "incremental_calibration_examples/incremental_calibration_examples_egomotion_sensors/src/algo/Calibrator.cpp: addMeasurement, addMeasurements"]}
{"id": "C74", "title": "Egomotion calibrator: which motion measurements give an error term", "statement": "A window with n measurements of a sensor inside the spline's time range gives exactly n-1 error terms, between successive measurements if the time stamps are sorted. Not guaranteed (counterexample proved): that every measurement is used (the first of every window never is), and that with unsorted time stamps a motion is compared over its own interval.", "quantifier": "every sequence of motion measurements of a sensor and every time range", "why_tests_cant": "Unit tests sample a few literals; the claim ranges over every sequence.", "anchors": ["incremental_calibration_examples/incremental_calibration_examples_egomotion_sensors/src/algo/Calibrator.cpp: addMotionErrorTerms"]}
{"id": "C75", "title": "OptimizationProblemSpline::addSpline inserts, activates and keeps the spline", "statement": "addSpline with variables that are not yet in the problem appends all of them to the group in order, activates them and makes the spline the last one returned by the accessors; adding a spline with a variable that is already present throws and keeps the lists of splines.", "quantifier": "all problems, splines and groups", "why_tests_cant": "Unit tests sample a few literals; the claim ranges over every problem and spline.", "anchors": ["incremental_calibration_examples/incremental_calibration_examples_car/src/algo/OptimizationProblemSpline.cpp: addSpline", "incremental_calibration_examples/incremental_calibration_examples_time_delay/src/algo/OptimizationProblemSpline.cpp", "incremental_calibration_examples/incremental_calibration_examples_egomotion_sensors/src/algo/OptimizationProblemSpline.cpp"]}
{"id": "C76", "title": "The splines an OptimizationProblemSpline lists and the variables it holds", "statement": "Without clear() the variables of every listed spline are in the problem, and without rejected addSpline calls the variables in the problem are exactly those of the listed splines; clear() removes the variables and keeps the list of splines as it was; a rejected addSpline leaves exactly the variables before the conflicting one and lists no spline; getSpline returns or throws as specified; in the egomotion example it throws in debug builds only. Not guaranteed (counterexample proved): that an index beyond the end throws in a release build of the egomotion example (it is undefined behaviour there), that the variables of listed splines are in the problem after clear(), and that every variable belongs to a listed spline after a rejected addSpline.", "quantifier": "all histories of calls", "why_tests_cant": "Unit tests sample a few literals; the claim ranges over every history.", "anchors": ["incremental_calibration_examples/incremental_calibration_examples_car/src/algo/OptimizationProblemSpline.cpp: addSpline", "incremental_calibration/include/aslam/calibration/core/OptimizationProblem.h: clear"]}
{"id": "C77", "title": "CameraCalibrator after a failure of the estimator or a change of the batch size", "statement": "If the optimisation throws, the batch stays in the estimator: no observation is ever accepted again and every later processBatch throws InvalidOperationException. If the exception leaves after the batch has been removed, or the batch size is set to zero or to at most the number of images waiting, adding images never triggers processing again. A second processBatch in a row hands a batch without images to the estimator; before the first image it does nothing. A user who expects to be able to go on after an exception is therefore wrong in each of these cases.", "quantifier": "every history of calls before and after", "why_tests_cant": "Unit tests sample a few literals; the claim ranges over every history and failure point.", "anchors": ["incremental_calibration_examples/incremental_calibration_examples_camera/src/camera/CameraCalibrator.cpp: addImage, processBatch, initBatch, getOptions"]}
{"id": "C78", "title": "Camera statistics and CameraValidator bookkeeping", "statement": "After any sequence of images the validator lists the errors (predicted minus observed) of exactly the comparable corners of the images with a target, in order, each with its squared norm over sigma2; the reported maxima are the largest absolute errors (0 if none); the outliers are the errors strictly outside of the quantile, never more for a larger quantile; an image without target changes nothing. The calibrator's maxima and outlier counts are those of its error lists.", "quantifier": "every sequence of images and corners, every quantile", "why_tests_cant": "Unit tests sample a few literals; the claim ranges over every sequence of images.", "anchors": ["incremental_calibration_examples/incremental_calibration_examples_camera/src/camera/CameraValidator.cpp: addImage, getNumOutliers", "incremental_calibration_examples/incremental_calibration_examples_camera/src/camera/CameraCalibrator.cpp: getStatistics"]}
{"id": "C79", "title": "The average error norm printed by CameraValidator::getLastImage", "statement": "The average printed is the mean error norm of the compared corners times the fraction of corners compared; it is the mean if all corners are compared. Not guaranteed (counterexample proved): that it is the mean error norm: it is strictly smaller if a corner is skipped and some error is not zero.", "quantifier": "every observation of the target", "why_tests_cant": "Unit tests sample a few literals; the claim ranges over every observation.", "anchors": ["incremental_calibration_examples/incremental_calibration_examples_camera/src/camera/CameraValidator.cpp: getLastImage"]}
{"id": "C80", "title": "VisionDataAssociation: which frames are kept", "statement": "With a previous frame, a frame is stored exactly if there are more tracks than the required number and at most half of them (rounded down) have a disparity not above the threshold; then it becomes the reference, gets the next id and its matches are appended. With enough tracks but too little disparity nothing changes; with too few tracks only the reference changes. Without a previous frame the frame becomes the reference and nothing else happens. The call is undefined exactly if there is a reference, no track and a negative required number.", "quantifier": "every state, frame and set of disparities, whatever the (uninitialised) thresholds contain", "why_tests_cant": "Unit tests sample a few literals; the claim ranges over every stream.", "anchors": ["incremental_calibration_vision/src/vision/VisionDataAssociation.cpp: addImage"]}
{"id": "C81", "title": "2D laser simulation: the sine wave path", "statement": "genSineWavePath returns exactly the requested number of controls (at least one; only the initial zero control if T is not positive); integrating the rotation rates gives at every step the heading of the tangent of amplitude*sin(2 pi frequency x), and the forward speed is the arc speed along that curve.", "quantifier": "every number of steps, amplitude, frequency and positive period", "why_tests_cant": "Unit tests sample a few literals; the claim ranges over every parameter set.", "anchors": ["incremental_calibration_examples/incremental_calibration_examples_2dlrf/src/2dlrf/utils.cpp: genSineWavePath"]}
{"id": "C82", "title": "2D laser simulation: the error terms of simulated data are the simulated noise", "statement": "For any controls, landmarks and noise, the observation error of every simulated range and bearing at the true poses is exactly the noise that was added; the motion error is the noise plus a whole number of turns per time step, which is zero exactly if the heading was not wrapped in this step; along a sine wave path started with heading at most pi/2 away from the axis no wrap occurs. Not guaranteed (counterexample proved): that the motion error is the noise where the simulator wraps the heading (ErrorTermMotion does not wrap).", "quantifier": "all controls, landmarks, noises and time steps", "why_tests_cant": "Unit tests sample a few literals; the claim ranges over every trajectory and noise.", "anchors": ["incremental_calibration_examples/incremental_calibration_examples_2dlrf/src/2dlrf/simulate-offline.cpp: main", "incremental_calibration_examples/incremental_calibration_examples_2dlrf/src/2dlrf/ErrorTermMotion.cpp: evaluateErrorImplementation", "incremental_calibration_examples/incremental_calibration_examples_2dlrf/src/2dlrf/ErrorTermObservation.cpp: evaluateErrorImplementation"]}
{"id": "C83", "title": "initLandmarks: first sightings", "statement": "With as many measurement rows as poses, initLandmarks places every landmark where its first positive range puts it from the pose of that time step, and leaves never sighted landmarks at the origin; with exact data and poses it returns the true landmarks; without rows the output argument is left as it was. Not guaranteed (counterexample proved): that the output is defined with fewer measurement rows than poses.", "quantifier": "all poses, measurements and calibrations", "why_tests_cant": "Unit tests sample a few literals; the claim ranges over all data.", "anchors": ["incremental_calibration_examples/incremental_calibration_examples_2dlrf/src/2dlrf/utils.cpp: initLandmarks"]}
{"id": "C84", "title": "2D laser incremental program: partition into batches", "statement": "With a positive batch size every time step belongs to exactly one batch; the batch contains the poses of its steps, all landmarks and the calibration, and the motion and observations of all its steps but the first; building it never throws. While the optimiser returns, every addBatch returns: the problem finally contains exactly the accepted batches in order, the poses of exactly the accepted time steps, and landmarks and calibration iff a batch was accepted. With batch size zero the loop never ends.", "quantifier": "every number of steps, landmarks, batch size, options and sequence of optimiser outcomes", "why_tests_cant": "Unit tests sample a few literals; the claim ranges over every run.", "anchors": ["incremental_calibration_examples/incremental_calibration_examples_2dlrf/src/2dlrf/simulate-online-new.cpp: main", "incremental_calibration/src/core/IncrementalEstimator.cpp: addBatch"]}
{"id": "C85", "title": "2D laser online program: only informative batches are kept", "statement": "If the batch size divides the number of steps, the loop ends; it keeps the first batch and every other batch exactly if the mutual information against the batches kept before exceeds the threshold; the reported calibration is the one of the kept batches; keeping k batches divided the determinant by more than 2^(2 miTol (k-1)). Otherwise the last round reads behind the end of the data.", "quantifier": "every number of steps, batch size, threshold and sequence of optimisation results", "why_tests_cant": "Unit tests sample a few literals; the claim ranges over every run.", "anchors": ["incremental_calibration_examples/incremental_calibration_examples_2dlrf/src/2dlrf/simulate-online.cpp: main"]}
{"id": "C86", "title": "Simulated motion model: rigid motion of the vehicle", "statement": "One step of the motion model moves the vehicle by dt times its velocity, expressed along its old attitude, and turns it by the angle |om| dt about the axis om of its own frame (not at all for rates up to machine epsilon); unit quaternions stay unit quaternions; a planar vehicle stays planar and its heading changes by om dt.", "quantifier": "every pose, velocity, rotation rate and time step", "why_tests_cant": "Unit tests sample a few literals; the claim ranges over every pose and rate.", "anchors": ["incremental_calibration_examples/incremental_calibration_examples_time_delay/src/simulation/simulationEngine.cpp: integrateMotionModel", "incremental_calibration_examples/incremental_calibration_examples_egomotion_sensors/src/simulation/simulationEngine.cpp: integrateMotionModel"]}
{"id": "C87", "title": "Time-delay simulator: one record per step, consistent with each other", "statement": "With a positive step the simulation ends and records exactly one entry per step k dt < T in every list; poses follow from each other by the recorded velocities, which are the chord speed and turn rate of the sine curve; the wheel velocities are v -/+ b om, the measurements k times them, stamped k dt plus the delay, poses half a step later and transformed to the pose sensor; attitudes stay unit quaternions and the heading stays tangential to the curve. With a step that is not positive it never ends.", "quantifier": "every parameter set, initial pose and noise", "why_tests_cant": "Unit tests sample a few literals; the claim ranges over every parameter set.", "anchors": ["incremental_calibration_examples/incremental_calibration_examples_time_delay/src/simulation/simulationEngine.cpp: simulate, genSineBodyVel2d, genWheelVelocity"]}
{"id": "C88", "title": "Time-delay simulator against calibrator: where the residual vanishes", "statement": "Without noise, the wheel error terms of the calibrator vanish for the true scale factor, base line and velocity; with noise they are the scaled noise. With respect to the delay they vanish for minus the simulated delay, for all motions; with the simulated delay itself they vanish exactly where the wheel moves as fast as two delays later. Not guaranteed (counterexample proved): that they vanish for the simulated delay.", "quantifier": "every simulation and motion of the vehicle", "why_tests_cant": "Unit tests sample a few literals; the claim ranges over every trajectory.", "anchors": ["incremental_calibration_examples/incremental_calibration_examples_time_delay/src/simulation/simulationEngine.cpp: simulate", "incremental_calibration_examples/incremental_calibration_examples_time_delay/src/algo/Calibrator.cpp: addLeftWheelErrorTerms, addRightWheelErrorTerms"]}
{"id": "C89", "title": "Egomotion simulator: trajectory", "statement": "With a positive step the trajectory has one pose per step, starting from the initial one, stamped k secToNsec(dt), each following from the previous one by the motion model with the velocities commanded for that type (straight: unit speed along the initial x axis; sine; random with noise; combined: all three in thirds), with unit quaternions on the side of the previous one; with a step that is not positive it never ends. In the combined trajectory the first step of the sine and random phases starts again from the origin of the curve and covers the whole way since then. Not guaranteed (counterexample proved): that no step is longer than the others.", "quantifier": "every type, parameter set and noise", "why_tests_cant": "Unit tests sample a few literals; the claim ranges over every parameter set.", "anchors": ["incremental_calibration_examples/incremental_calibration_examples_egomotion_sensors/src/simulation/simulationEngine.cpp: simulate, genSineBodyVel2d, integrateMotionModel"]}
{"id": "C90", "title": "Egomotion simulator: sensor data consistent between sensors and with the calibrator", "statement": "For every sensor there is exactly one measurement per pair of successive sampling times: the motion of the sensor between the two times, stamped with the later time plus the sensor's delay; noisy data differ by the noise only; sensors satisfy the hand-eye relation with the reference; the calibrator's prediction at the true delay and calibration equals the measurement, and its dead-reckoned initial trajectory is the true one seen from its start. A sensor without calibration makes the simulation throw; a step that rounds to zero nanoseconds makes it run for ever.", "quantifier": "every trajectory, set of sensors, calibration, delay, noise and sampling step", "why_tests_cant": "Unit tests sample a few literals; the claim ranges over every trajectory and set of sensors.", "anchors": ["incremental_calibration_examples/incremental_calibration_examples_egomotion_sensors/src/simulation/simulationEngine.cpp: simulate", "incremental_calibration_examples/incremental_calibration_examples_egomotion_sensors/src/algo/Calibrator.cpp: addMotionErrorTerms, initSplines"]}
{"id": "C91", "title": "Car programs: every navigation solution becomes one pose and one velocity measurement", "statement": "For every log whose six topics differ and carry their message types, the program reads to the end; every navigation solution that follows a performance message yields exactly one pose and one velocity measurement, in order and with the same corrected time, and nothing else does: the position is the solution's place relative to the place of the first such solution in its east-north-up axes (the first is the origin, distances are preserved), the attitude is the body's attitude in these axes, the velocity is the measured velocity seen in the body, the rates are the measured ones in radians.", "quantifier": "every log file, configuration, Euler angle convention that represents rotations and time stamp corrector", "why_tests_cant": "Unit tests sample a few literals; the claim ranges over every log file.", "anchors": ["incremental_calibration_examples/incremental_calibration_examples_car/src/realworld/calibrator.cpp: main (navigation solutions)", "incremental_calibration_examples/incremental_calibration_examples_car/src/realworld/analyzer.cpp: main", "incremental_calibration/src/geo/geodetic.cpp"]}
{"id": "C92", "title": "Car programs: the variances of poses and velocities", "statement": "The variances attached to every position are the squared north, east and down errors, in this order, to coordinates that are east, north, up; those attached to every velocity the squared north, east and down errors to coordinates of the vehicle. For the position this is the covariance expressed in the coordinates iff the north and east variances agree, and it is for every pose when all three agree. Not guaranteed (counterexample proved): that the variances are expressed in the axes of the measurement (position: north and east differ; velocity: vehicle heading east).", "quantifier": "every navigation solution and performance message", "why_tests_cant": "Unit tests sample a few literals; the claim ranges over every message.", "anchors": ["incremental_calibration_examples/incremental_calibration_examples_car/src/realworld/calibrator.cpp: main (covariances)"]}
{"id": "C93", "title": "Car programs: wheels, steering and odometer", "statement": "Every wheel and steering message of an active sensor yields exactly one measurement with the values of the message, in order, stamped by that sensor's own corrector; inactive sensors yield none. Odometer messages (with times other than -1 s) yield one measurement for each but the first: the distance travelled since the previous message over the time since then, so that the measured speeds times the elapsed times sum to the distance travelled. Not guaranteed (counterexample proved): the same for a message with time -1 s, after which the next one is skipped as if it were the first.", "quantifier": "every log file and configuration", "why_tests_cant": "Unit tests sample a few literals; the claim ranges over every log file.", "anchors": ["incremental_calibration_examples/incremental_calibration_examples_car/src/realworld/calibrator.cpp: main (front, rear, steering, DMI)"]}
{"id": "C94", "title": "Car programs: from the log to the calibrator", "statement": "Every measurement read is given to the calibrator in order; when the program ends normally, either nothing is left unprocessed or fewer than two poses were left at the end (whose window is then silently not used). Not guaranteed (counterexample proved): a diagnosis for a log that is not as configured: a message of another type on an active topic, or two sensors on one topic, is undefined behaviour; a log without performance messages silently yields no pose and no calibration.", "quantifier": "every log file, configuration and sequence of estimator outcomes", "why_tests_cant": "Unit tests sample a few literals; the claim ranges over every log file.", "anchors": ["incremental_calibration_examples/incremental_calibration_examples_car/src/realworld/calibrator.cpp: main", "incremental_calibration_examples/incremental_calibration_examples_car/src/algo/CarCalibrator.cpp: addMeasurement, addMeasurements, unprocessedMeasurements"]}
{"id": "C95", "title": "Car and time-delay calibrators: error terms compare the measurements with the velocities of the sensors' own points", "statement": "For every motion of the vehicle that the splines represent, the error terms built from the stored measurements are exactly these: one per measurement that passes the filters (delayed time and delay bound inside the splines, wheels not below the cutoff, vehicle not rolling backwards, front point fast enough for the steering), each given the true velocity, in body coordinates, of the point of the vehicle where the sensor sits (rear wheels at (0,+-e_r), front wheels at (L,+-e_f), steering at (L,0), odometer at the left rear wheel, navigation system at its lever arm and in its own axes) at the measurement's delayed time.", "quantifier": "every differentiable rigid motion, parameter value, option and set of stored measurements", "why_tests_cant": "Unit tests sample a few literals; the claim ranges over every motion.", "anchors": ["incremental_calibration_examples/incremental_calibration_examples_car/src/algo/CarCalibrator.cpp: addVelocitiesErrorTerms, addPoseErrorTerms, addDMIErrorTerms, addFrontWheelsErrorTerms, addRearWheelsErrorTerms, addSteeringErrorTerms", "incremental_calibration_examples/incremental_calibration_examples_time_delay/src/algo/Calibrator.cpp: addLeftWheelErrorTerms, addRightWheelErrorTerms"]}
{"id": "C96", "title": "Car and time-delay calibrators: a window's splines start from the measured poses", "statement": "The positions and rotations the splines are fitted to put the navigation system, through its current lever arm and mounting, exactly where it was measured, so that splines through them have no pose error except possibly at pitch +-90 degrees. Not guaranteed (counterexample proved): zero error of an exact measurement at pitch +-90 degrees, whichever angles the library extracts.", "quantifier": "every list of poses, mounting and conversion between angles, matrices and quaternions that represents rotations", "why_tests_cant": "Unit tests sample a few literals; the claim ranges over every list of poses.", "anchors": ["incremental_calibration_examples/incremental_calibration_examples_car/src/algo/CarCalibrator.cpp: initSplines, predictPoses", "incremental_calibration_examples/incremental_calibration_examples_time_delay/src/algo/Calibrator.cpp: initSplines", "incremental_calibration_examples/incremental_calibration_examples_car/src/error-terms/ErrorTermPose.cpp"]}
{"id": "C97", "title": "Car and time-delay calibrators: predictions report what the batch would contain", "statement": "With at least two stored poses predict() reports, for every measurement that yields error terms and for no other, the delayed time, the errors and the squared error of exactly the error terms addMeasurements() would create for the same stored measurements, and in the car example the predicted value is the measurement minus the error (wheels, odometer, poses up to angle wrapping; for the steering the predicted value is the wheel angle), as it is for the time-delay example's poses; the splines are those the library fits to all stored poses with one request whose number of segments follows from the options and the times; predictions accumulate until cleared. Not guaranteed (counterexample proved): that predict() is defined with fewer than two stored poses, and that the time-delay example's predicted wheel speeds agree with their errors (they are ground speeds: they agree iff the wheel does not move sideways).", "quantifier": "every set of stored measurements, parameters, options and spline fit", "why_tests_cant": "Unit tests sample a few literals; the claim ranges over every set of measurements.", "anchors": ["incremental_calibration_examples/incremental_calibration_examples_car/src/algo/CarCalibrator.cpp: predict, predictPoses, predictVelocities, predictDMI, predictFrontWheels, predictRearWheels, predictSteering, clearPredictions", "incremental_calibration_examples/incremental_calibration_examples_time_delay/src/algo/Calibrator.cpp: predict, predictLeftWheel, predictRightWheel"]}
{"id": "C98", "title": "Egomotion calibrator: dead reckoning and the effect of predictions on it", "statement": "The splines of a window have as many segments as the knots per second ask for, or one per measurement if the measurements are rarer; they are fitted to poses that start where the previous window ended, at the beginning of the first motion, and of which each follows from the one before by the measured motion of the reference sensor at its time stamp; splines through these poses satisfy the reference sensor's error terms exactly. While no call fails and nothing is predicted, every motion of the reference sensor is integrated exactly once, in order. For every spline fit that commutes with rigid motions, leaving out all calls about predictions gives the estimator the same error terms and all other calls the same outcome. Not guaranteed (counterexample proved): that predict() changes nothing: it moves the start of the next splines on by the motion of the pending window, which is then integrated again.", "quantifier": "every history of calls, outcome of the estimator, calibration, order of the map and spline fit that commutes with rigid motions", "why_tests_cant": "Unit tests sample a few literals; the claim ranges over every history.", "anchors": ["incremental_calibration_examples/incremental_calibration_examples_egomotion_sensors/src/algo/Calibrator.cpp: initSplines, predict, addMeasurements, addMotionErrorTerms"]}
{"id": "C99", "title": "Egomotion calibrator: error terms and predictions compare the measured with the sensor's own motion", "statement": "For a calibrated sensor there is one error term for each usable measurement but the first (reference sensor: every measurement; others: time minus delay, with the bound around it, inside the splines): it compares the measured motion with the motion of the sensor, as given by splines, delay and mounting, since the previous usable measurement, with the measurement's covariance. predict() appends for every sensor the predicted motions, errors and squared errors of exactly these error terms, with the raw time stamps; without measurements of the reference sensor it throws and changes nothing; a sensor without calibration makes it throw after the predictions of the sensors before it. addMeasurements() hands the estimator one batch with exactly these error terms of all sensors and forgets the measurements however the estimator ends, or, if splines or error terms cannot be built, hands over nothing and keeps everything; addMotionMeasurement() does so once the window has elapsed, before it stores the new measurement as the first of the next window.", "quantifier": "every set of measurements, splines, calibration and order of the sensors", "why_tests_cant": "Unit tests sample a few literals; the claim ranges over every set of measurements.", "anchors": ["incremental_calibration_examples/incremental_calibration_examples_egomotion_sensors/src/algo/Calibrator.cpp: addMotionErrorTerms, predictMotion, predict"]}
{"id": "C100", "title": "Egomotion calibrator: a measurement of a sensor without calibration is fatal", "statement": "A measurement of a sensor without calibration is accepted silently; as soon as the window has elapsed every later add call of any sensor fails and drops its measurement, no batch is ever given to the estimator again, and every attempt integrates the pending motions of the reference sensor once more; such a state is reachable. Not guaranteed (counterexample proved): an error for that measurement only.", "quantifier": "every later stream of measurements", "why_tests_cant": "Unit tests sample a few literals; the claim ranges over every stream.", "anchors": ["incremental_calibration_examples/incremental_calibration_examples_egomotion_sensors/src/algo/Calibrator.cpp: addMotionMeasurement, addMeasurement, addMeasurements, addMotionErrorTerms"]}
{"id": "C101", "title": "IncrementalEstimator: what a throwing reoptimize or removeBatch publishes", "statement": "reoptimize() returns iff the marginalised group is in the problem and optimizer and analysis return; it never changes the problem; if it throws, all statistics are unchanged, except when the marginal analysis fails after the optimizer returned: then exactly the scaled covariance, bases and singular values are those of the new estimate and everything else published is that of the old. Not guaranteed (counterexample proved): that a throwing reoptimize() or removeBatch() leaves the published statistics consistent.", "quantifier": "every reachable state and every outcome of optimizer and linear solver", "why_tests_cant": "Unit tests sample a few literals; the claim ranges over every state and failure point.", "anchors": ["incremental_calibration/src/core/IncrementalEstimator.cpp: reoptimize, removeBatch"]}
{"id": "C102", "title": "IncrementalEstimator: construction from a configuration", "statement": "The constructor from a property tree returns exactly when groupId is an integer, every other key present (infoGainDelta, checkValidity, verbose, the linear solver's keys) converts to its type and the optimizer accepts its part; every option then has the value of its own key, or its default if the key is absent; the group is the one given modulo 2^64. Not guaranteed (counterexample proved): that a negative groupId is refused.", "quantifier": "every configuration", "why_tests_cant": "Unit tests sample a few literals; the claim ranges over every configuration.", "anchors": ["incremental_calibration/src/core/IncrementalEstimator.cpp: IncrementalEstimator(const sm::PropertyTree&)", "aslam_tsvd_solver/src/aslam-tsvd-solver.cc: createTsvdOptionsFromPropertyTree"]}
{"id": "C103", "title": "Calibrators of the examples: options from a configuration", "statement": "For each of the three calibrators the options read are exactly those that agree, key by key, with the published table of keys, and the constructor throws exactly when some required key is absent or malformed; the wheel speed cutoff is taken modulo 65536, and the order of the translation spline, if absent, is uninitialised memory. Not guaranteed (counterexample proved): that the cutoff keeps its value and that the absent order is the default 4.", "quantifier": "every configuration and content of uninitialised memory", "why_tests_cant": "Unit tests sample a few literals; the claim ranges over every configuration.", "anchors": ["incremental_calibration_examples/incremental_calibration_examples_car/src/algo/CarCalibratorOptions.cpp", "incremental_calibration_examples/incremental_calibration_examples_time_delay/src/algo/CalibratorOptions.cpp", "incremental_calibration_examples/incremental_calibration_examples_egomotion_sensors/src/algo/CalibratorOptions.cpp"]}
{"id": "C104", "title": "Simulators of the examples: parameters from a configuration", "statement": "The simulation parameters read are exactly those under the published keys (time delay: wheel factors, delays, variances, mounting, trajectory, the start pose always being the identity; egomotion: for every sensor id the mounting, delay and noise of the last entry with that id, one noise entry more than sensors). Not guaranteed (counterexample proved): that the number of sensors simulated is the number configured: entries with the same id overwrite each other silently.", "quantifier": "every configuration and conversion of angles to rotations", "why_tests_cant": "Unit tests sample a few literals; the claim ranges over every configuration.", "anchors": ["incremental_calibration_examples/incremental_calibration_examples_time_delay/src/simulation/SimulationParams.cpp", "incremental_calibration_examples/incremental_calibration_examples_time_delay/src/simulation/TrajectoryParams.cpp", "incremental_calibration_examples/incremental_calibration_examples_egomotion_sensors/src/simulation/SimulationParams.cpp", "incremental_calibration_examples/incremental_calibration_examples_egomotion_sensors/src/simulation/TrajectoryParams.cpp"]}
{"id": "C105", "title": "Linear solver adapter: what it passes to the solver and how failures surface", "statement": "solveSystem() and analyzeMarginal() hand the library the transpose of the Jacobian built last, the configured start of the marginalised columns and (solve) the current errors; they return true exactly when the library returned and otherwise fail exactly as the library does; they return false, leaving solution and solver untouched, exactly when the transposition gives no matrix; initMatrixStructure() clears the library's solver, builds the structure and ends the process for a diagonal conditioner. Not guaranteed (counterexample proved): that a failed analysis reaches the user: the estimator ignores the false of analyzeMarginal() and publishes the statistics of the scaled system as those of the unscaled one; and rhsJtJrhs() is always 0.", "quantifier": "every library behaviour, system and sequence of calls", "why_tests_cant": "Unit tests sample a few literals; the claim ranges over every behaviour of the library.", "anchors": ["aslam_tsvd_solver/src/aslam-tsvd-solver.cc", "incremental_calibration/src/core/IncrementalEstimator.cpp: addBatch, reoptimize"]}
{"id": "C106", "title": "Linear solver adapter: which matrices are released", "statement": "Over any sequence of initMatrixStructure, buildSystem, solveSystem and analyzeMarginal calls the number of live matrices grows by exactly one for every solveSystem() in which the library threw, and is otherwise unchanged. Not guaranteed (counterexample proved): that it never grows.", "quantifier": "every sequence of calls and failure pattern", "why_tests_cant": "Unit tests sample a few literals; the claim ranges over every sequence of calls.", "anchors": ["aslam_tsvd_solver/src/aslam-tsvd-solver.cc"]}
{"id": "C107", "title": "Time-delay simulator program: every simulated measurement reaches the estimator", "statement": "For a period of at least a nanosecond the simulation gives equally many measurements of the three kinds; fed to the calibrator in the program's order and flushed at the end, the program ends normally if neither the spline fit nor the estimator fails, and all measurements were handed to the estimator, in order and exactly once, except that a single last pose with its wheel measurements can stay behind.", "quantifier": "every simulation parameter set, noise, window length, spline fit and estimator", "why_tests_cant": "Unit tests sample a few literals; the claim ranges over every trajectory length and window.", "anchors": ["incremental_calibration_examples/incremental_calibration_examples_time_delay/src/simulation/simulator.cpp", "incremental_calibration_examples/incremental_calibration_examples_time_delay/src/algo/Calibrator.cpp: addMeasurements, initSplines", "incremental_calibration_examples/incremental_calibration_examples_time_delay/src/simulation/SimulationEngine.cpp"]}
{"id": "C108", "title": "Egomotion simulator program: every simulated measurement reaches the estimator", "statement": "When the program ends normally every simulated measurement of every sensor was handed to the estimator, in order and exactly once, and nothing is pending; it throws if the reference sensor is not simulated; if no sensor is delayed and neither fit nor estimator fails it ends normally. Not guaranteed (counterexample proved): that it ends normally with delays: a delayed sensor after the reference sensor can close the last window, after which the flush without any reference measurement throws before a result is written.", "quantifier": "every set of sensors, delays, trajectories, window lengths and estimators", "why_tests_cant": "Unit tests sample a few literals; the claim ranges over every set of sensors and delays.", "anchors": ["incremental_calibration_examples/incremental_calibration_examples_egomotion_sensors/src/simulation/simulator.cpp", "incremental_calibration_examples/incremental_calibration_examples_egomotion_sensors/src/algo/Calibrator.cpp: addMeasurements, initSplines"]}
{"id": "C109", "title": "Spline writers of the examples: sampled trajectory output", "statement": "For a period of at least a nanosecond the writer outputs, batch by batch and spline by spline, exactly the points at minimum time plus multiples of the period strictly before the maximum time (never the last one); a batch with fewer rotation than translation splines throws after the points before it; with a period below one nanosecond it never ends. Not guaranteed (counterexample proved): termination for every period, and a defined error for a batch without splines (a null pointer is dereferenced).", "quantifier": "every list of batches, splines and period", "why_tests_cant": "Unit tests sample a few literals; the claim ranges over every list of splines and period.", "anchors": ["incremental_calibration_examples/incremental_calibration_examples_car/src/algo/splinesToFile.cpp", "incremental_calibration_examples/incremental_calibration_examples_time_delay/src/algo/splinesToFile.cpp", "incremental_calibration_examples/incremental_calibration_examples_egomotion_sensors/src/algo/splinesToFile.cpp"]}
{"id": "C110", "title": "Camera calibration program: every image with the target reaches the estimator", "statement": "If some image initialises the geometry and the estimator does not fail, the program ends normally; every image in which the target is found, also before the initialising one, is given to the estimator exactly once and in order, in batches of exactly the configured size and a last one with the rest (empty when the size divides the number); a failing estimator ends the program with its exception, also when it fails for the last batch, which exists as soon as one target was found; if no image initialises the geometry the program ends with an exception and hands over nothing. With image saving on, one image is saved for every batch accepted in the loop, the one that completed it. Not guaranteed (counterexample proved): that no batch is empty, that a log without target gives no exception, and that all images used are saved.", "quantifier": "every log, outcome of detector and estimator, and batch size of at least 1", "why_tests_cant": "Unit tests sample a few literals; the claim ranges over every log.", "anchors": ["incremental_calibration_examples/incremental_calibration_examples_camera/src/camera/calibrateCamera.cpp: main", "incremental_calibration_examples/incremental_calibration_examples_camera/src/camera/CameraCalibrator.cpp: initGeometry, addImage, processBatch"]}
{"id": "C111", "title": "Camera calibration file: parameters, their standard deviations and the estimator's results", "statement": "After at least one accepted batch the file contains every projection and distortion parameter under its name, under sigma_ and its name the square root of the entry of the covariance's diagonal for its position, the image size, the type, every singular value and every entry of the unobservable bases under its numbered key and both thresholds, and a validator reading the file uses the geometry the calibrator used; any type but omni and pinhole is refused. For the pinhole camera the standard deviations are those of the named parameters when the set of variables enumerates the projection first, and those of the distortion when it comes first. Not guaranteed (counterexample proved): the file without an accepted batch (undefined behaviour: empty vectors are read), and the right standard deviations when the distortion comes first in the enumeration of the set of variables.", "quantifier": "every result of the estimator and every injective numbering without slashes", "why_tests_cant": "Unit tests sample a few literals; the claim ranges over every result.", "anchors": ["incremental_calibration_examples/incremental_calibration_examples_camera/src/camera/CameraCalibrator.cpp: write, getProjectionStandardDeviation, getDistortionStandardDeviation, initBatch, initVisionFramework", "incremental_calibration_examples/incremental_calibration_examples_camera/src/camera/CameraValidator.cpp: initVisionFramework"]}
{"id": "C112", "title": "Camera calibrator and validator: options from a configuration", "statement": "The options read are exactly those that agree, key by key, with the published table: five detector options are required, all others have defaults; the calibrator exists exactly when the options and the estimator's part can be read and the type is omni or pinhole (otherwise BadArgument); the validator, given the calibrator's section, looks for the same target with the same settings; a negative batch size becomes huge, and the whole log becomes one batch. Not guaranteed (counterexample proved): that the defaults of the five detector options are used, that a negative batch size is refused, and that the estimator reports on the group the camera's variables are put into (two keys that nothing compares).", "quantifier": "every configuration", "why_tests_cant": "Unit tests sample a few literals; the claim ranges over every configuration.", "anchors": ["incremental_calibration_examples/incremental_calibration_examples_camera/src/camera/CameraCalibrator.cpp: CameraCalibrator(const sm::PropertyTree&)", "incremental_calibration_examples/incremental_calibration_examples_camera/src/camera/CameraValidator.cpp: CameraValidator(const sm::PropertyTree&, const sm::PropertyTree&)"]}
{"id": "C113", "title": "Exceptions: the text tells where and why", "statement": "For texts without NUL, what() of an exception thrown by the library is the function, the message, the file and the line, followed by the offending argument and the bound, in this order, each exactly when given; copying and assigning keep it; for the same message and place, and printed values without closing bracket, two texts are equal only if line, argument and bound are. Not guaranteed (counterexample proved): the same for texts with NUL respectively values with a closing bracket.", "quantifier": "every message, place, argument and bound; every chain of copies and assignments", "why_tests_cant": "Unit tests sample a few literals; the claim ranges over every combination of given and omitted parts.", "anchors": ["incremental_calibration/src/exceptions/Exception.cpp: Exception, what", "incremental_calibration/include/aslam/calibration/exceptions/OutOfBoundException.h, BadArgumentException.h", "incremental_calibration/src/exceptions/NullPointerException.cpp"]}
{"id": "C114", "title": "Printing an object to a stream", "statement": "Inserting objects and texts into a stream of static type ostream appends their descriptions; into a stream of static type ofstream, objects before the first text leave nothing, except vector design variables, which are written there as well. The description of a distribution or estimator determines its parameters as printed; the description of a grid or histogram announces exactly the number of cell lines that follow and determines every cell; extraction never changes object or stream. Not guaranteed (counterexample proved): that a file gets what the console gets and that reading restores what was printed.", "quantifier": "every object, every chain of insertions, every static type of the stream", "why_tests_cant": "Unit tests sample a few literals; the claim ranges over every sequence of insertions into console and file streams and every reachable grid.", "anchors": ["incremental_calibration/src/base/Serializable.cpp: operator <<, operator >>", "incremental_calibration/include/aslam/calibration/data-structures/Grid.tpp: write", "incremental_calibration/src/statistics/NormalDistribution1v.cpp: write, read"]}
{"id": "C115", "title": "Camera validation program: the report covers the whole log", "statement": "validateCamera compares every image of the log; the maxima, the number of outliers and the error files cover all comparable corners of all images with a target, in the order of the log; with visualization and saveImages an image is saved under every time stamp, showing the last image with a target up to then, provided the first image has a target or the image writer accepts an empty image. Not guaranteed (counterexample proved): that the image saved under a time stamp shows the image of that time stamp, and that there is a report when the first image to save has no target.", "quantifier": "every log (images with and without target), every combination of options", "why_tests_cant": "Unit tests sample a few literals; the claim ranges over every log and every order of found and missed targets.", "anchors": ["incremental_calibration_examples/incremental_calibration_examples_camera/src/camera/validateCamera.cpp: main", "incremental_calibration_examples/incremental_calibration_examples_camera/src/camera/CameraValidator.cpp: addImage, getLastImage, getNumOutliers"]}
{"id": "C116", "title": "Pose error term: the Jacobian is the derivative of the error", "statement": "For the pose error terms of the car and time-delay examples the matrix handed to the optimizer is the derivative of the evaluated error with respect to the perturbation of the transformation, for every transformation whose pitch is not +-90 degrees and every measurement whose angle errors are not at the jump of the angle reduction. Not guaranteed (counterexample proved): a Jacobian everywhere: with the nose straight up or down a singular matrix is inverted.", "quantifier": "every differentiable motion of the transformation, every measurement, every extraction of angles and reduction of angles that satisfies its contract", "why_tests_cant": "Unit tests sample a few literals; the claim ranges over the claim ranges over the continuum and the test compares with numeric differences at one point.", "anchors": ["incremental_calibration_examples/incremental_calibration_examples_car/src/error-terms/ErrorTermPose.cpp: evaluateJacobiansImplementation", "incremental_calibration_examples/incremental_calibration_examples_time_delay/src/error-terms/ErrorTermPose.cpp: evaluateJacobiansImplementation"]}
{"id": "C117", "title": "NormalDistribution<M>: distance, density, samples and divergence fit together", "statement": "For every distribution that could be constructed: the Mahalanobis distance is the quadratic form of the inverse covariance, never negative and zero only at the mean; the density is positive, is exp(-distance/2) over the square root of (2 pi)^M times the determinant, is largest at the mean and only there, and its logarithm is the log-density; a sample made from standard normal numbers z has the distance |z|^2 and the density of z divided by the product of the factor's diagonal, and every point is such a sample; the Kullback-Leibler divergence is never negative and zero exactly for distributions with the same mean and covariance. A new estimator holds the standard normal distribution, no points and no valid estimate; reset empties it and keeps the distribution.", "quantifier": "every dimension, mean, accepted covariance and point", "why_tests_cant": "Unit tests sample a few literals; the claim ranges over every dimension and every positive definite matrix.", "anchors": ["incremental_calibration/include/aslam/calibration/statistics/NormalDistributionMv.tpp: mahalanobisDistance, logpdf, pdf, getSample, KLDivergence", "incremental_calibration/include/aslam/calibration/statistics/EstimatorMLNormalMv.tpp: EstimatorML, reset"]}
{"id": "C118", "title": "Singleton base class: one object, the same for every caller", "statement": "In every sequence of constructions, destructions and getInstance() calls by one thread there is at most one object; exists() says whether there is one; getInstance() returns it, creating it only if there is none, and returns the same object until it is destroyed; a second construction throws InvalidOperation and changes nothing; a failed constructor leaves no object. With several threads in getInstance() a null pointer is never dereferenced, and once the object exists all get it. Not guaranteed (counterexample proved): the same for simultaneous first calls: one thread can get an exception, or two threads two different objects.", "quantifier": "every sequence of calls; every number of threads and every interleaving", "why_tests_cant": "Unit tests sample a few literals; the claim ranges over every interleaving.", "anchors": ["incremental_calibration/include/aslam/calibration/base/Singleton.tpp: Singleton, ~Singleton, getInstance, exists"]}
{"id": "C119", "title": "Python module: which programs never touch a destroyed object", "statement": "Whatever a Python program creates, looks up, adds, removes and drops, it never touches an estimator, incremental problem, linear solver or options object that has been destroyed; a program that never calls getOptimizationProblem, or in which no batch ever leaves an incremental problem, never touches any destroyed object, and a problem that the program made lives as long as its Python object has a name or an incremental problem that is alive holds it. Not guaranteed (counterexample proved): this of every program: a problem obtained from getOptimizationProblem is destroyed when the batch is removed, also if it was added to another incremental problem, and offering it again to the estimator that holds it can leave the estimator with a destroyed batch.", "quantifier": "every sequence of calls of the exported functions and every dropping of names", "why_tests_cant": "Unit tests sample a few literals; the claim ranges over every order of calls and of the end of Python objects.", "anchors": ["incremental_calibration_python/src/OptimizationProblem.cpp: exportOptimizationProblem", "incremental_calibration_python/src/IncrementalEstimator.cpp: exportIncrementalEstimator", "incremental_calibration_python/src/LinearSolver.cpp: exportLinearSolver"]}
{"id": "C120", "title": "UniformDistribution<X> over every arithmetic type and several dimensions: total probability one", "statement": "For float and double, for signed integers in one and several dimensions (when the support fits the type) and for unsigned integers when the support is not the whole type: for every support with minimum below maximum (in every component) the constructor succeeds and the probabilities of all values of the support add up to one (the density integrates to one for a floating type), every value in the support has the same probability and every other value has none; the stored variance is that of the values. Not guaranteed (counterexample proved): the same for the whole range of an unsigned type and for long double.", "quantifier": "every type, width, dimension and support", "why_tests_cant": "Unit tests sample a few literals; the claim ranges over every width and every support.", "anchors": ["incremental_calibration/include/aslam/calibration/statistics/UniformDistribution1v.tpp: setSupport, pdf, pmf, getVariance", "incremental_calibration/include/aslam/calibration/statistics/UniformDistributionMv.tpp: setSupport, pdf", "incremental_calibration/include/aslam/calibration/tpl/IsReal.h", "incremental_calibration/include/aslam/calibration/tpl/IsInteger.h"]}
{"id": "C121", "title": "Randomizer over an integral type, and Poisson samples in doubles", "statement": "All samplers but sampleUniform draw from sampleUniform(), which for an integral type yields 0 or 1 depending on whether the generator's number is in the upper half of its range. So, exactly: samplePoisson returns the number of ones before the first zero, for every positive mean; in doubles it returns the number of factors for which the rounded running product stays above exp(-mean). Not guaranteed (counterexample proved): that a Poisson sample depends on the mean, that an exponential or geometric sample is ever positive, that a gamma sample is ever a positive finite number, that an inner category is ever sampled (integral types), and that in doubles two means beyond the range of exp give different samples.", "quantifier": "every generator, width of the integral type, parameter and state", "why_tests_cant": "Unit tests sample a few literals; the claim ranges over every state of the generator.", "anchors": ["incremental_calibration/include/aslam/calibration/statistics/Randomizer.tpp: sampleUniform, samplePoisson, sampleExponential, sampleGeometric, sampleGamma, sampleCategorical", "incremental_calibration/include/aslam/calibration/statistics/Randomizer.h"]}
{"id": "C122", "title": "EstimatorML of a one-dimensional normal distribution in IEEE doubles", "statement": "For whole-numbered points whose squares add up to at most 2^53, in doubles: count and running sums are exact; the order of the points changes neither count, sums, mean nor validity, nor the distribution if it is valid; for at most 2^26 points the mean is the exact mean rounded once and the computed variance differs from the variance by at most 16 units of 2^-53 of the mean square, it decides validity by its sign, and is what the distribution holds when valid. If moreover the number of points times the sum of squares is below 2^49, the estimate is valid exactly if two points differ. Not guaranteed (counterexample proved): that two different points are accepted (2^26 and 2^26 + 1 are not), that equal points are rejected (three times 0.1 are accepted), that the order never matters (2^53, 1, 1), and that an infinite or not-a-number point is rejected: from then on every estimate is called valid and its variance is not a number.", "quantifier": "every list of points and every former state of the estimator", "why_tests_cant": "Unit tests sample a few literals; the claim ranges over every list of points and their order.", "anchors": ["incremental_calibration/src/statistics/EstimatorMLNormal1v.cpp: reset, addPoint, addPoints", "incremental_calibration/src/statistics/NormalDistribution1v.cpp: setVariance"]}
{"id": "C123", "title": "Observability report of the calibrators: every printed number belongs to the printed name", "statement": "In verbose mode, after each addBatch the calibrators print one line per calibration parameter. For the time-delay and the egomotion calibrator, after any history of accepted, rejected and removed batches: if columns are scaled and all calibration variables are optimised, the report is complete and the number next to each name is the norm of the returned basis row of just that parameter; in every other case the report reads a row that does not exist. The rows follow the order in which the batches list the calibration variables, leaving out those that are not optimised. Not guaranteed (counterexample proved): with delays not optimised the time-delay report shows the right wheel's row under the left delay's name; the car calibrator never optimises the mounting, so its report always reads a row that does not exist, after having shown the delays, if any, under the names of the mounting.", "quantifier": "every history of the estimator, every batch, activity setting and number of sensors", "why_tests_cant": "Unit tests sample a few literals; the claim ranges over every history and every activity setting.", "anchors": ["incremental_calibration_examples/incremental_calibration_examples_time_delay/src/algo/Calibrator.cpp: addMeasurements", "incremental_calibration_examples/incremental_calibration_examples_car/src/algo/CarCalibrator.cpp: addMeasurements", "incremental_calibration_examples/incremental_calibration_examples_egomotion_sensors/src/algo/Calibrator.cpp: addMeasurements", "incremental_calibration/src/core/IncrementalEstimator.cpp: addBatch", "incremental_calibration/src/core/IncrementalOptimizationProblem.cpp: add, getGroupDim"]}
{"id": "C124", "title": "Random samples follow the named distribution, given independent uniform random numbers", "statement": "If the numbers of the generator, scaled to [0, 1], were independent and uniform, then: samplePoisson would return k with probability e^-mean mean^k / k!; sampleGeometric k with p (1-p)^k; sampleCategorical category k with p_k (probabilities adding up to exactly one); sampleExponential, sampleUniform over reals and sampleGamma with an integral shape a value below t with the probability that the exponential, uniform and gamma density give to the values below t; sampleNormal would return within n attempts, of two random numbers each, with probability 1 - (1 - pi/4)^n, and then a value between s and t with the probability that the normal density with the given mean and variance gives to it; and sampleGamma with a shape between 2^-52 and one accepts, per attempt of two random numbers, a value between s and t with a probability proportional to the integral of the gamma density from s to t, and returns the value of the first accepted attempt; with a shape n plus such a fraction it returns, within N attempts for the fraction, a value between s and t with the probability that the gamma density with this shape gives to the interval, times that of accepting one of N attempts. Precisely: the set of random numbers with which the sampler gives the result, as a part of the unit cube, has that volume. Refuted for sampleUniform over integers: the two ends of the range have half the probability of the other values.", "quantifier": "all parameters, all results and thresholds, all generators (for which numbers give which result)", "why_tests_cant": "Unit tests sample a few literals; the claim ranges over a probability is an integral over all possible random numbers; a test compares histograms.", "anchors": ["incremental_calibration/include/aslam/calibration/statistics/Randomizer.tpp: sampleUniform, sampleCategorical, sampleNormal, samplePoisson, sampleExponential, sampleGeometric, sampleGamma"]}
{"id": "C125", "title": "The description of an object shows its parameters under their names", "statement": "What an object prints to a console stream is a list of named values, and under each name stands the current value of that parameter: the mean and variance (covariance) last accepted by a normal distribution, support and support area of a uniform one, shape and inverse scale, the degrees a chi square distribution was made with, the transformation matrix; for an estimator the mean and variance of the points added since the last reset, their number, and 1 for valid exactly when there is an estimate; for a vector design variable its value, also in a file, and after revertUpdate the former text; for the calibration variables of the time-delay and egomotion examples the values getParameters exports. A refused value is never shown. The car's text also shows the two values its exported vector loses. The named values can be read back from the text. A Randomizer shows the seed it was made with, copied or given last; a default one the number the program's generator gave next, and the numbers drawn then are the following ones, each once, whatever is copied or assigned; a user expects this seed to reproduce the samples, which is refuted.", "quantifier": "every object state reachable by its setters, every history of Randomizer objects, every formatting of numbers", "why_tests_cant": "Unit tests sample a few literals; the claim ranges over every history of setters, points and seeds.", "anchors": ["incremental_calibration/include/aslam/calibration/statistics/Randomizer.tpp: write, setSeed", "incremental_calibration/include/aslam/calibration/statistics/NormalDistributionMv.tpp: write", "incremental_calibration/include/aslam/calibration/statistics/UniformDistributionMv.tpp: write", "incremental_calibration/include/aslam/calibration/statistics/GammaDistribution.tpp: write", "incremental_calibration/src/statistics/EstimatorMLNormal1v.cpp: write", "incremental_calibration/include/aslam/calibration/data-structures/VectorDesignVariable.tpp: write", "incremental_calibration_examples/incremental_calibration_examples_car/src/design-variables/OdometryDesignVariables.cpp: write", "incremental_calibration_examples/incremental_calibration_examples_time_delay/src/design-variables/OdometryDesignVariables.cpp: write", "incremental_calibration_examples/incremental_calibration_examples_egomotion_sensors/src/design-variables/DesignVariables.cpp: write"]}
{"id": "C126", "title": "The standard deviations the car calibration program writes belong to the names it writes", "statement": "After the last batch the program writes deviations.txt: 18 names, each followed by the square root of the estimator's variance of that parameter. A user expects 18 lines, each with the deviation of the named parameter. Refuted for every history of batches, accepted, rejected or failed: without an accepted batch the first entry read does not exist; otherwise twelve lines are right, then, if the delays are optimised, the four delays appear under the names of the mounting, and then an entry that does not exist is read (undefined behaviour; the program's other result files are written after this one). In general the file holds the fixed names next to the roots of the entries in their order, and is complete exactly if there are at least 18 entries.", "quantifier": "every history of batches, with and without delays", "why_tests_cant": "Unit tests sample a few literals; the claim ranges over every history of batches and every activity setting.", "anchors": ["incremental_calibration_examples/incremental_calibration_examples_car/src/realworld/calibrator.cpp: main, 245-266", "incremental_calibration_examples/incremental_calibration_examples_car/src/algo/CarCalibrator.cpp: getOdometryVariablesVariance", "incremental_calibration/src/core/IncrementalEstimator.cpp: addBatch, getSigma2Theta"]}
{"id": "C127", "title": "The data files of the car programs show what the calibrator was given", "statement": "While they read a log, the calibration and analysis programs write six data files. Whatever the log and the configuration, there is exactly one line for each measurement handed to the calibrator, in the same order, in the file of its kind and with all its numbers, and writing changes nothing about whether the log can be read. In a proper log, the times in a file are the header stamps of the messages that count, in their order: the navigation solutions after the first performance message, every message of an active wheel or steering sensor, and every odometer message but the first; a sensor that is not active has an empty file. Not guaranteed (counterexample proved): that the times are those the calibrator was given (these are corrected, those in the files are not).", "quantifier": "every log of messages, every configuration, every time stamp corrector", "why_tests_cant": "Unit tests sample a few literals; the claim ranges over every log.", "anchors": ["incremental_calibration_examples/incremental_calibration_examples_car/src/realworld/calibrator.cpp: main, 76-243", "incremental_calibration_examples/incremental_calibration_examples_car/src/realworld/analyzer.cpp: main"]}
{"id": "C128", "title": "History files of the example programs: one line per processed window", "statement": "Whatever measurements are added and whatever fails: infoGainHist.txt has exactly one line per window for which the estimator's addBatch returned, in order, with the information gain it returned; calibHist.txt has the initial parameters in its first line and then one line for each of the same windows with the parameters after it; every further call adds one line to both files or none to either; the egomotion simulator writes such a parameter file for every calibrated sensor, all under different names. Not guaranteed (counterexample proved): that line i belongs to window i (a window whose addBatch throws has no line), and that only accepted windows have a line (if all are rejected the initial parameters are repeated once per window).", "quantifier": "every sequence of calls of a calibrator, every estimator behaviour, every set of sensors", "why_tests_cant": "Unit tests sample a few literals; the claim ranges over every measurement stream and every failure of the estimator.", "anchors": ["incremental_calibration_examples/incremental_calibration_examples_time_delay/src/simulation/simulator.cpp: main", "incremental_calibration_examples/incremental_calibration_examples_car/src/realworld/calibrator.cpp: main", "incremental_calibration_examples/incremental_calibration_examples_egomotion_sensors/src/simulation/simulator.cpp: main", "incremental_calibration_examples/incremental_calibration_examples_egomotion_sensors/src/algo/Calibrator.cpp: addMeasurements"]}
{"id": "C129", "title": "Function objects: a value depends on the parameter written last and nothing else", "statement": "Incomplete gamma, log-gamma, log-factorial and digamma objects, in exact arithmetic: whatever was constructed, copied, assigned, changed by setters and evaluated before, getAlpha/getDim return the parameter last given to this very object (a multivariate log-gamma made without a dimension has dimension one); operator() and getValue give the same value, that of the function for this parameter at the argument (the multivariate log-gamma by its recurrence, the log-factorial the logarithm of n!, the integer log-gamma that of (n-1)!, throwing BadArgument exactly at 0); evaluating changes nothing. If Boost's two incomplete gamma functions add up to one, so do a P and a Q object with the same parameter at any point of any program. Not guaranteed (counterexample proved): that an integer log-gamma object can be used for the log-factorial it is derived from.", "quantifier": "every program of constructions, copies, assignments, setters and evaluations, every number of objects, every argument", "why_tests_cant": "Unit tests sample a few literals; the claim ranges over every history of constructions, copies, assignments and setters.", "anchors": ["incremental_calibration/include/aslam/calibration/functions/Function.tpp: operator()", "incremental_calibration/src/functions/IncompleteGammaPFunction.cpp", "incremental_calibration/src/functions/IncompleteGammaQFunction.cpp", "incremental_calibration/include/aslam/calibration/functions/LogGammaFunction.tpp", "incremental_calibration/src/functions/LogGammaFunction.cpp", "incremental_calibration/src/functions/LogFactorialFunction.cpp", "incremental_calibration/include/aslam/calibration/functions/DigammaFunction.tpp"]}
{"id": "C130", "title": "Distributions, estimators, grids and time stamps are values", "statement": "Normal (one and many dimensions), gamma, chi-square and uniform distributions, both estimators, grids, histograms and time stamps: in every program of constructions, copies, assignments (also of an object to itself) and calls, each object is in every member what a freshly constructed object becomes under its own history, where a copy or assignment takes over the history of its source. So copies cannot be told from their originals, and a call on one object changes no other.", "quantifier": "every program of constructions, copies, assignments and calls on any number of objects of a class", "why_tests_cant": "Unit tests sample a few literals; the claim ranges over every history and every number of objects.", "anchors": ["incremental_calibration/src/statistics/NormalDistribution1v.cpp", "incremental_calibration/include/aslam/calibration/statistics/NormalDistributionMv.tpp", "incremental_calibration/include/aslam/calibration/statistics/GammaDistribution.tpp", "incremental_calibration/src/statistics/ChiSquareDistribution.cpp", "incremental_calibration/include/aslam/calibration/statistics/UniformDistribution1v.tpp", "incremental_calibration/include/aslam/calibration/statistics/UniformDistributionMv.tpp", "incremental_calibration/src/statistics/EstimatorMLNormal1v.cpp", "incremental_calibration/include/aslam/calibration/statistics/EstimatorMLNormalMv.tpp", "incremental_calibration/include/aslam/calibration/data-structures/Grid.tpp", "incremental_calibration/include/aslam/calibration/statistics/Histogram1v.tpp", "incremental_calibration/include/aslam/calibration/statistics/HistogramMv.tpp", "incremental_calibration/src/base/Timestamp.cpp"]}
{"id": "C131", "title": "Type-level booleans compute the formulas they spell", "statement": "Every formula built from True, False, And, Or, Not, IfThenElse, Equals, IsVoid, IsReal (float or double), IsInteger (neither of them) and IsNumeric (one of six types) over any types, however deeply nested, compiles to True if it holds and to False otherwise; If<...>::Result and ...::Numeric exist exactly for formulas that hold; IfThenElse gives the first type if the formula holds and the second otherwise; of the two versions of a function selected by IsReal and IsInteger exactly one exists for each type. Not guaranteed (counterexample proved): that IsInteger holds only for integer types (void, const double and every class are 'integers'), that IsNumeric holds for them, and that And and Or of arguments that are no truth values are rejected.", "quantifier": "every formula of any depth over all types", "why_tests_cant": "Unit tests sample a few literals; the claim ranges over every formula and every type.", "anchors": ["incremental_calibration/include/aslam/calibration/tpl/And.h", "incremental_calibration/include/aslam/calibration/tpl/Or.h", "incremental_calibration/include/aslam/calibration/tpl/Not.h", "incremental_calibration/include/aslam/calibration/tpl/If.h", "incremental_calibration/include/aslam/calibration/tpl/IfThenElse.h", "incremental_calibration/include/aslam/calibration/tpl/Equals.h", "incremental_calibration/include/aslam/calibration/tpl/IsVoid.h", "incremental_calibration/include/aslam/calibration/tpl/IsReal.h", "incremental_calibration/include/aslam/calibration/tpl/IsInteger.h", "incremental_calibration/include/aslam/calibration/tpl/IsNumeric.h", "incremental_calibration/include/aslam/calibration/tpl/Boolean.h"]}
