import json
I="incremental_calibration/include/aslam/calibration/"
S="incremental_calibration/src/"
E="incremental_calibration_examples/incremental_calibration_examples_"
P=[]
def p(title,statement,quant,why,anchors):
    P.append(dict(id="C%02d"%(len(P)+1),title=title,statement=statement,quantifier=quant,why_tests_cant=why,anchors=anchors))
W="Unit tests sample a few literals; the claim ranges over "
# --- permute
p("permute applies the permutation",
  "Calling permute(container, p) where p is a permutation of 0..n-1 terminates, does not throw, and leaves container[i] equal to the old container[p[i]] for every i.",
  "every container length, every element type/content, every permutation of the indices",
  W+"all n! permutations of every length n; the in-place cycle chasing only goes wrong on particular cycle structures.",
  [I+"algorithms/permute.tpp: permute"])
p("permute never loses or duplicates an element and rejects bad index vectors",
  "Whatever index vector is given, when permute returns or throws the container is still a rearrangement of its original content; a length mismatch throws OutOfBoundException before anything is touched; an index >= size throws OutOfBoundException once reached; a call that returns normally was given only in-range indices.",
  "every container and every index vector (permutation or not)",
  W+"arbitrary malformed index vectors.",
  [I+"algorithms/permute.tpp: permute"])
p("permute: exactly which index vectors make it return, throw or loop for ever",
  "With as many indices as elements, permute returns iff every entry is in range and, from every position i, following the index vector comes to a position >= i. Otherwise consider the first position where this fails: if its entry is out of range the call throws OutOfBoundException, else it never returns. So it returns for distinct in-range entries, but not, as a caller would expect, for all in-range entries: {0,0} loops for ever.",
  "every container and every index vector of the same length",
  "Non-termination cannot be observed by a finite test.",
  [I+"algorithms/permute.tpp: permute"])
# --- OptimizationProblem
p("OptimizationProblem: linear index enumerates every design variable exactly once, group by group",
  "In every state reachable through the public API, designVariable(i) for i=0..numDesignVariables()-1 returns the concatenation, in groups ordering, of the groups' variable vectors, each variable of the problem exactly once; any index >= numDesignVariables() throws OutOfBoundException; getGroupId(designVariable(i)) is the group the variable was added to; asking for the group of an unknown variable or for an unknown group throws.",
  "every history of API calls and every index",
  W+"every interleaving of add/permute/reorder/clear calls.",
  [S+"core/OptimizationProblem.cpp: designVariable, getGroupId, addDesignVariable, setGroupsOrdering, permuteDesignVariables"])
p("OptimizationProblem: error terms only refer to design variables of the problem",
  "In every reachable state every design variable of every contained error term is contained in the problem, errorTerm(i) for i<numErrorTerms() returns each error term exactly once, and any larger index throws.",
  "every history of API calls",
  W+"every call history.",
  [S+"core/OptimizationProblem.cpp: addErrorTerm, errorTerm, isErrorTermInProblem"])
p("OptimizationProblem: add operations have exact effects and strong exception safety",
  "addDesignVariable throws NullPointerException on null, InvalidOperationException on a variable already present, otherwise appends the variable to its group (creating the group at the end of the ordering if new) and changes nothing else; addErrorTerm throws on null, on a duplicate and if some of its variables is absent, otherwise appends it. A throwing call leaves the problem unchanged.",
  "every reachable state and every argument",
  W+"every state/argument combination, in particular re-adding under another group.",
  [S+"core/OptimizationProblem.cpp: addDesignVariable, addErrorTerm"])
p("setGroupsOrdering accepts exactly the rearrangements of the current groups",
  "In both problem classes setGroupsOrdering(o) succeeds iff o lists every current group id exactly once; on success the ordering becomes o and the set of variables, groups and error terms is unchanged; otherwise it throws OutOfBoundException and nothing changes.",
  "every reachable state and every vector of group ids",
  W+"every id vector (wrong length, unknown ids, duplicates).",
  [S+"core/OptimizationProblem.cpp: setGroupsOrdering", S+"core/IncrementalOptimizationProblem.cpp: setGroupsOrdering"])
p("Group dimension accounting",
  "getGroupDim(g) is the sum of minimalDimensions() over the active variables of group g; the sum over all groups of the ordering equals the total active dimension of all variables enumerated by designVariable(i); unknown groups throw OutOfBoundException.",
  "every reachable state of both problem classes, every activity/dimension assignment",
  W+"every state and activity flag combination.",
  [S+"core/OptimizationProblem.cpp: getGroupDim", S+"core/IncrementalOptimizationProblem.cpp: getGroupDim"])
p("saveDesignVariables/restoreDesignVariables is an exact undo of value changes",
  "After saveDesignVariables(), any sequence of value updates on design variables, and any later additions, restoreDesignVariables() gives every variable that was in the problem at save time exactly its saved value and touches no other variable.",
  "every reachable problem, every store of values, every sequence of updates",
  W+"every update history between save and restore.",
  [S+"core/OptimizationProblem.cpp: saveDesignVariables, restoreDesignVariables", S+"core/IncrementalOptimizationProblem.cpp: saveDesignVariables, restoreDesignVariables"])
p("Permutation entry points of both optimization problems only reorder within their scope",
  "permuteDesignVariables(p,g) with a permutation p reorders group g by p and leaves other groups, the ordering, memberships and error terms unchanged; permuteErrorTerms(p) reorders only the error terms; an unknown group throws and changes nothing; even a failing call keeps every membership. The same holds for permuteDesignVariables and permuteOptimizationProblems of the incremental problem.",
  "every reachable state and index vector",
  W+"all permutations and states.",
  [S+"core/OptimizationProblem.cpp: permuteErrorTerms, permuteDesignVariables"])
# --- Incremental problem
p("IncrementalOptimizationProblem: exact reference counting",
  "In every state reached by successful add/remove/permute/reorder/clear calls over immutable batches, a design variable is in the problem iff some contained batch contains it, its count is the number of contained batches containing it, and it sits in exactly one group, the one every containing batch assigns to it.",
  "every history of successful operations and every batch content",
  W+"every interleaving of overlapping batches being added and removed.",
  [S+"core/IncrementalOptimizationProblem.cpp: add, remove, isDesignVariableInProblem"])
p("IncrementalOptimizationProblem: add followed by remove restores the exact problem state",
  "If add(batch) succeeds then remove(batch) of that batch gives back exactly the previous list of batches, counts, group contents (with their order) and groups ordering. Removing a null pointer, an absent batch or a position beyond the last batch throws and changes nothing.",
  "every reachable state and batch not already contained",
  W+"every overlap pattern between the new batch and the old ones.",
  [S+"core/IncrementalOptimizationProblem.cpp: add, remove"])
p("IncrementalOptimizationProblem: flat indices enumerate variables and error terms exactly once",
  "designVariable(i), i<numDesignVariables(), enumerates each contained variable exactly once in groups ordering; errorTerm(i), i<numErrorTerms(), enumerates the batches' error terms in batch order; larger indices throw OutOfBoundException, and so do positions of absent batches and unknown groups; the group of an unknown variable is an InvalidOperationException.",
  "every reachable state and index",
  W+"every state, including batches without error terms.",
  [S+"core/IncrementalOptimizationProblem.cpp: designVariable, errorTerm, getGroupId, getErrorIdx"])
p("IncrementalOptimizationProblem: no error term is contained twice",
  "In every state reached by successful operations no error term occurs in two contained batches or twice in the flat enumeration; adding a batch that shares an error term with a contained one throws InvalidOperationException.",
  "every history",
  W+"every history of adds with shared error terms.",
  [S+"core/IncrementalOptimizationProblem.cpp: add, isErrorTermInProblem"])
p("A failed IncrementalOptimizationProblem::add leaves the problem unchanged (expected; violated)",
  "A user expects a throwing add to have no effect. In the code, a batch sharing an error term or with a conflicting group leaves design variables, counts or an ordering entry behind; restricted claim: a null batch leaves no trace, and a batch whose conflict is on its very first variable in an existing group leaves no trace; in general the variables enumerated before the first conflict (all, if the failure is a shared error term) stay with one reference more, and the new groups of these and of the conflicting variable stay in the ordering.",
  "every state and failing argument",
  W+"every failing argument/state pair.",
  [S+"core/IncrementalOptimizationProblem.cpp: add"])
p("Removing batches is order independent",
  "Removing two different contained batches in either order gives the same membership, reference counts and remaining batch sequence; removing all batches one by one in any order gives the empty problem.",
  "every reachable state and removal order",
  W+"all removal orders.",
  [S+"core/IncrementalOptimizationProblem.cpp: remove"])
p("clear makes the incremental problem as new (expected; violated for the backup)",
  "clear() removes all batches, variables, groups and ordering; a user expects a later restoreDesignVariables() to have no effect, but the value backup survives clear() and restore still writes into variables that are no longer in the problem. OptimizationProblem::clear() does clear the backup.",
  "every reachable state",
  W+"every prior history.",
  [S+"core/IncrementalOptimizationProblem.cpp: clear, restoreDesignVariables", S+"core/OptimizationProblem.cpp: clear"])
p("Mutating a batch after adding it keeps the reference counts sound (expected; violated)",
  "A batch is shared by pointer; if a variable is added to it after add(), remove() creates a phantom entry whose count wraps to 2^64-1, so isDesignVariableInProblem then reports a variable that is in no batch. Restricted claim: batches not mutated after add are always removed cleanly.",
  "every mutation of a contained batch",
  W+"every mutation schedule.",
  [S+"core/IncrementalOptimizationProblem.cpp: remove"])
# --- Estimator
p("IncrementalEstimator: acceptance rule",
  "addBatch(b, force) reports batchAccepted iff force, or the solution passed the validity check (when enabled: fewer than maxIterations iterations and a decreased cost) and either the information gain exceeds infoGainDelta or the numerical rank of the marginal block increased; the batch is in the problem afterwards iff it is accepted. Before the first accepted batch all statistics are the initial ones (rank -1), so the first valid batch is accepted.",
  "every estimator state, batch, option set and optimizer/solver outcome",
  W+"every combination of solver outcome and options.",
  [S+"core/IncrementalEstimator.cpp: addBatch"])
p("IncrementalEstimator: a rejected batch leaves no trace",
  "When addBatch rejects a batch, every design variable of the problem has its value from before the call, the problem (batches, counts, groups, ordering) and all published statistics (rank, singular values, basis, covariance, information gain, ...) are exactly as before the call.",
  "every reachable estimator state, batch and optimizer behaviour",
  W+"arbitrary optimizer side effects on the values and every problem state.",
  [S+"core/IncrementalEstimator.cpp: addBatch, restoreLinearSolver"])
p("IncrementalEstimator: the marginalised group is always the trailing column block",
  "Whenever the optimizer is run, the marginalised group is last in the groups ordering and marginalStartIndex is the total active dimension of all other groups, so columns [start, total) are exactly those of the marginalised variables.",
  "every problem state that contains the group",
  W+"every group layout.",
  [S+"core/IncrementalEstimator.cpp: orderMarginalizedDesignVariables, addBatch, reoptimize"])
p("IncrementalEstimator: information gains telescope",
  "Over any sequence of addBatch calls without removal the sum of the information gains of accepted batches equals half the difference of the final and initial log2 sum of singular values; rejected batches contribute nothing.",
  "every sequence of batches and solver outcomes",
  W+"every history length.",
  [S+"core/IncrementalEstimator.cpp: addBatch, getInformationGain, getSingularValuesLog2Sum"])
p("A throwing addBatch leaves the estimator unchanged (expected; violated)",
  "If the batch contains no variable of the marginalised group and none is in the problem yet, addBatch throws but the batch and its variables stay in the problem; after that every further addBatch without that group throws too. Restricted claim: published statistics are unchanged by a throwing addBatch, and if only rebuilding the solver after a rejection fails, the rejection is complete.",
  "every state and failing batch",
  W+"every failing batch.",
  [S+"core/IncrementalEstimator.cpp: addBatch, orderMarginalizedDesignVariables"])
p("IncrementalEstimator: removeBatch",
  "removeBatch(b) of a batch that is not contained changes nothing; of a contained batch it removes exactly the first occurrence and then re-estimates; when it was the last batch carrying the marginalised group the batch is removed but the call throws.",
  "every reachable state and argument",
  W+"every state.",
  [S+"core/IncrementalEstimator.cpp: removeBatch, reoptimize"])
p("Linear solver layout after a rejection is a disjoint gap-free tiling",
  "After a rejection the active design variables get block indices 0..k-1 in enumeration order and column ranges that tile [0, total active dimension) without gaps or overlaps, and error terms get row ranges tiling [0, total error dimension).",
  "every problem content",
  W+"every dimension/activity assignment.",
  [S+"core/IncrementalEstimator.cpp: restoreLinearSolver"])
# --- Grid / histogram
p("Grid: valid cell indices map one-to-one onto the cell storage",
  "For a grid with cell counts n_1..n_M the linear index is a bijection between index tuples with 0<=idx_i<n_i and positions 0..prod(n_i)-1 of the cell array, so two valid indices never alias and none is out of the array.",
  "every dimension M, every cell count vector, every index",
  W+"every shape.",
  [I+"data-structures/Grid.tpp: computeLinearIndex, getCell"])
p("Grid: incrementIndex enumerates every cell exactly once",
  "Starting from the zero index and calling incrementIndex until it equals getNumCells() visits every valid index exactly once and then stops.",
  "every dimension and cell count vector",
  W+"every shape.",
  [I+"data-structures/Grid.tpp: incrementIndex"])
p("Grid: every in-range point is mapped to the cell that contains it",
  "getIndex(p) for an in-range point returns a valid index whose half-open cell contains p (the maximum belongs to the last cell); out-of-range points throw OutOfBoundException; construction throws exactly for non-positive resolution, empty range or resolution larger than the range.",
  "every exact-arithmetic grid and point",
  W+"all points of the continuum; stated for integers and for reals in exact arithmetic; see C59 for IEEE doubles.",
  [I+"data-structures/Grid.tpp: Grid, getIndex, isInRange"])
p("Grid: cell centre round trip, and where it fails",
  "For a valid index i of a real-valued grid getIndex(getCoordinates(i)) = i whenever the centre does not exceed the maximum, in particular when the resolution divides the range; otherwise getIndex throws (a last cell whose centre is outside exists). For integral grids it holds for non-negative minima; with a negative minimum truncation moves the centre to the next cell.",
  "every grid and valid index",
  W+"every resolution/range pair.",
  [I+"data-structures/Grid.tpp: getIndex, getCoordinates"])
p("Grid: invalid indices are always rejected (expected; violated for negative indices)",
  "getCell on an index with a component >= the cell count throws; a negative component passes the check and accesses the array out of bounds or aliases another cell.",
  "every integer index vector",
  W+"every negative index vector; the effect is undefined behaviour.",
  [I+"data-structures/Grid.tpp: isValidIndex, getCell, getCoordinates"])
p("Histogram: counts equal the number of samples per bin",
  "After adding any list of samples to a fresh histogram every bin holds the number of in-range samples falling in it, getSum() is the number of in-range samples, out-of-range samples change nothing, and the result does not depend on the order of samples.",
  "every sample list, histogram geometry",
  W+"every sample sequence.",
  [I+"statistics/Histogram1v.tpp: addSample, addSamples, getSum", I+"statistics/HistogramMv.tpp: addSample, addSamples"])
p("Histogram summary statistics",
  "getNormalized() sums to 1 for a non-empty histogram; getMode is a bin centre with maximal count; getMedian is a bin centre whose cumulative count reaches at least half; getMean is the count-weighted average of bin centres and lies within the range of the centres; getVariance is the unbiased weighted variance for at least two samples.",
  "every non-empty histogram",
  W+"every histogram content.",
  [I+"statistics/Histogram1v.tpp: getMean, getMedian, getMode, getVariance, getNormalized"])
# --- DV
p("VectorDesignVariable: revertUpdate undoes exactly the last change and parameters round-trip",
  "revertUpdate() after update(dp), setValue(v) or setParameters(p) gives back the value before that call, for any history; getParameters after setParameters(p) returns p; a wrong-sized parameter matrix throws OutOfBoundException and changes nothing; getMinimalDimensions is the dimension.",
  "every value, update and call history",
  W+"every history.",
  [I+"data-structures/VectorDesignVariable.tpp"])
# --- statistics
p("EstimatorML<NormalDistribution<1>>: running estimate equals the batch formula and is order independent",
  "After any list of at least one and fewer than 2^32 points (exact arithmetic) the mean is the arithmetic mean and the variance the population variance when positive; the estimate is flagged valid iff the variance is positive; adding points one by one or as a range, and in any order, gives the same result; reset forgets the past. A user expects this for any number of points: with 2^32+1 of them the squared count has wrapped and the estimate is declared invalid.",
  "every list of points",
  W+"every list and order; exact arithmetic only.",
  [S+"statistics/EstimatorMLNormal1v.cpp"])
p("NormalDistribution<1>: cached quantities are consistent and rejected variances change nothing",
  "In every reachable state variance>0, precision*variance=1, stddev^2=variance and the normaliser matches; setVariance(v<=0) throws BadArgumentException and leaves the distribution unchanged; KL divergence of a distribution to itself is 0 and never negative; Mahalanobis distance is non-negative and 0 only at the mean; pdf = exp(logpdf). The density has integral 1 over the line, its mean and variance are those that getMean and getVariance return, and KLDivergence is the integral of p (ln p - ln q). In a program with any number of distributions each has the mean written last to it and its last positive variance, also through assignments.",
  "every reachable distribution, every argument",
  W+"the continuum.",
  [S+"statistics/NormalDistribution1v.cpp"])
p("A rejected covariance leaves NormalDistribution<M> unchanged (expected; violated)",
  "A user expects a rejected covariance to leave the distribution as it was. For a symmetric matrix that is not positive definite setCovariance throws BadArgumentException after it has overwritten the Cholesky factor used for sampling, so getCovariance and getSample disagree afterwards; every other observable is unchanged, and a matrix rejected for asymmetry changes nothing. An accepted covariance leaves factor, precision and determinant consistent.",
  "every distribution and rejected matrix",
  W+"every failing matrix.",
  [I+"statistics/NormalDistributionMv.tpp: setCovariance, getSample"])
p("UniformDistribution: support, density and mean",
  "setSupport throws iff min>=max leaving the support unchanged; pdf is 1/(max-min) inside and 0 outside (pmf 1/(max-min+1) for integers and sums to 1 over the support). getMean should be the midpoint (violated: the code returns half the width, right only when min=0).",
  "every support and point",
  W+"every support.",
  [I+"statistics/UniformDistribution1v.tpp"])
p("Multivariate uniform covariance (expected; violated for M>=2)",
  "The covariance of a uniform box should be diag(w_i^2/12). The code returns (prod w)^2/12 times identity: right exactly when w_i^2=(prod w)^2 for every i, in particular for M=1.",
  "every support box",
  W+"every dimension and box.",
  [I+"statistics/UniformDistributionMv.tpp: getCovariance, getMean"])
p("GammaDistribution KL divergence (expected; violated)",
  "KL(p||q) is 0 for p=q. The code's formula agrees with the textbook one exactly when (a_q-1)(psi(a_q)-psi(a_p))=0; for p=q it is 0.",
  "every pair of gamma distributions, every digamma function",
  W+"the continuum of parameters.",
  [I+"statistics/GammaDistribution.tpp: KLDivergence"])
p("Randomizer: samples stay in their documented range",
  "For every outcome of the underlying generator sampleUniform(min,max) lies in [min,max] (and an integer for integral types), sampleCategorical returns an index < number of categories, samplePoisson/sampleGeometric are non-negative, and sampleNormal's rejection loop only uses pairs with 0<s<1.",
  "every generator output stream",
  W+"every stream of the generator, including its extreme values.",
  [I+"statistics/Randomizer.tpp"])
p("sampleCategorical never returns a zero-probability category (expected; violated)",
  "With the first probability 0 and generator output 0 category 0 is returned. For strictly positive outputs the returned category has positive probability.",
  "every probability vector and generator output",
  "The failing output has probability 1/RAND_MAX; a test would hardly ever see it.",
  [I+"statistics/Randomizer.tpp: sampleCategorical"])
p("LogFactorial and integer LogGamma",
  "LogFactorialFunction(n) = ln(n!) for every n, LogGammaFunction<size_t>(n) = ln((n-1)!) for n>=1 and throws for 0.",
  "every natural number",
  W+"every n.",
  [S+"functions/LogFactorialFunction.cpp", S+"functions/LogGammaFunction.cpp"])
# --- geometry / matrix ops
p("Transformations: getInverse undoes the transformation",
  "For a 2d/3d transformation set from pose parameters, getInverse() applied to the transform of a point gives back the point and vice versa, distances are preserved, and inverse() in place agrees with getInverse().",
  "all poses and points",
  W+"the continuum of poses.",
  [I+"geometry/Transformation2d.tpp", I+"geometry/Transformation3d.tpp"])
p("Inverting a transformation twice gives the original (expected; violated)",
  "inverse() composes rotation and translation in the other order but keeps the same convention for later inversions, so a second inverse() does not give back the original unless rotation and translation commute.",
  "all poses",
  W+"the continuum of poses.",
  [I+"geometry/Transformation2d.tpp: inverse, getInverse", I+"geometry/Transformation3d.tpp: inverse"])
p("computeSumLogDiagR",
  "For a valid column range the function returns the sum of log2|R(i,i)| over the inclusive range, skipping entries not larger than epsilon in magnitude; it throws OutOfBoundException iff colBegin>=colEnd or colEnd>=cols; splitting a range adds up.",
  "every matrix and range",
  W+"every matrix and range.",
  [I+"algorithms/matrixOperations.tpp"])
# --- examples
p("Calibrators: every measurement is processed exactly once",
  "For every stream of measurements, each measurement given to the time-delay / car calibrator is either still pending or was used in exactly one processed window, in arrival order; a window is only processed when its duration reached windowDuration; the histories of information gain and variables grow by exactly one entry per processed window.",
  "every measurement stream and option set",
  W+"every stream.",
  [E+"time_delay/src/algo/Calibrator.cpp: addPoseMeasurement, addMeasurement, addMeasurements, clearMeasurements", E+"car/src/algo/CarCalibrator.cpp: addMeasurement, addMeasurements"])
p("OdometryDesignVariables::getParameters exports every calibrated parameter (expected; violated for the car)",
  "getParameters lists the values in the order of addToBatch, each exactly once (time-delay example). In the car example entry 11 is overwritten by the DMI delay and entry 21 is never set.",
  "every parameter value",
  W+"all values.",
  [E+"time_delay/src/design-variables/OdometryDesignVariables.cpp", E+"car/src/design-variables/OdometryDesignVariables.cpp"])
p("CameraCalibrator: batching and observation bookkeeping",
  "A batch is handed to the estimator exactly every batchNumImages accepted images and images before geometry initialisation are refused; a user expects getTransformation(i) to be the pose of getEstimatorObservations()[i], which fails after two accepted batches because observations are inserted at the front.",
  "every image stream",
  W+"every stream.",
  [E+"camera/src/camera/CameraCalibrator.cpp: addImage, processBatch, getTransformation"])
p("bestQuat returns the equivalent quaternion closest to the previous one",
  "bestQuat(p,c) is c or -c, represents the same rotation as c, is at distance at most that of the other sign from p, and lies in the same hemisphere as p.",
  "all quaternions",
  W+"the continuum.",
  [E+"car/src/algo/bestQuat.cpp", E+"time_delay/src/algo/bestQuat.cpp"])
p("Error-term Jacobians are the derivatives of the residuals",
  "For the 2D laser range finder motion and observation error terms and the car's error terms the Jacobians handed to the optimizer are the partial derivatives of the evaluated residual at every point where the residual is differentiable.",
  "all values of the design variables and measurements",
  W+"the continuum; numeric differentiation in tests samples points with tolerance.",
  [E+"2dlrf/src/2dlrf/ErrorTermMotion.cpp", E+"2dlrf/src/2dlrf/ErrorTermObservation.cpp", E+"car/src/error-terms/ErrorTermVelocities.cpp", E+"car/src/error-terms/ErrorTermWheel.cpp", E+"car/src/error-terms/ErrorTermSteering.cpp"])
p("setCovariance changes the weight of an error term (expected; violated)",
  "After setCovariance(Q) a user expects the weighted squared error to use inv(Q); the information matrix set in the constructor is kept.",
  "every error term and covariance",
  W+"every covariance.",
  [E+"2dlrf/src/2dlrf/ErrorTermMotion.cpp: setCovariance"])
p("Geodetic frame conversions are rigid and mutually inverse",
  "enu2ecef/ned2ecef rotate orthonormally about the reference, ecef2enu o enu2ecef = id, and wgs84ToEcef is injective in height direction along the ellipsoid normal.",
  "all coordinates",
  W+"the continuum.",
  [E+"car/src/geo/geodetic.cpp"])
p("VisionDataAssociation: frame ids and stored frames",
  "Stored frames have pairwise different ids, strictly increasing in insertion order; a user expects every match to refer to a stored frame, which fails because the first reference frame is never stored.",
  "every image stream and matcher outcome",
  W+"every stream.",
  ["incremental_calibration_vision/src/vision/VisionDataAssociation.cpp: addImage, reset"])
p("Timestamp is totally ordered and arithmetic is consistent",
  "The comparison operators form a total order compatible with conversion to double; (t + d) - d = t and (a - b) + b = a in exact arithmetic.",
  "all timestamps",
  W+"the continuum.",
  [S+"base/Timestamp.cpp"])
p("IncrementalOptimizationProblem: add succeeds exactly on compatible batches",
  "add(b) returns iff no variable of b is already in the problem in another group and no error term of b is already contained; otherwise it throws InvalidOperationException (NullPointerException for null). A successful add appends b, adds exactly b's new variables at the end of their groups, keeps every group id, and only appends to the groups ordering.",
  "every reachable problem state and every batch",
  W+"all pairs of problem state and batch.",
  [S+"core/IncrementalOptimizationProblem.cpp: add"])
p("IncrementalOptimizationProblem: no undefined behaviour in any history",
  "As long as batches are not mutated after they were added, no sequence of calls, including failing adds, reaches erase(end()) or an out-of-range vector access.",
  "every history of calls over every set of batches, including calls that throw",
  W+"histories of any length mixing failing and succeeding calls.",
  [S+"core/IncrementalOptimizationProblem.cpp: add, remove, permuteDesignVariables, designVariable"])
p("IncrementalEstimator: the problem contains exactly the accepted batches",
  "In any history of addBatch calls that all return, the problem's batches are those present at the start followed by the accepted ones in call order (up to order if a batch object without error terms is offered twice); rejected ones are absent.",
  "every sequence of batches, options, solver outcomes",
  W+"sequences of any length with arbitrary acceptance patterns.",
  [S+"core/IncrementalEstimator.cpp: addBatch, getNumBatches"])
p("IncrementalEstimator: getters agree with the last accepted result",
  "After an accepted addBatch and after reoptimize every getter (ranks, tolerances, bases, covariances, singular values, costs, information gain) answers the corresponding field of the returned value, which is what optimizer and linear solver reported; reoptimize does not change the problem; the active variables carry the optimizer's values and all others are untouched.",
  "every state and solver outcome",
  W+"all solver outcomes.",
  [S+"core/IncrementalEstimator.cpp: addBatch, reoptimize, getters"])
p("Grid and Histogram with IEEE doubles: lookups never hit undefined behaviour, but an in-range point may have no cell (expected to have one; violated)",
  "Once a grid of doubles is constructed, looking up any point (NaN and infinities included) returns a cell or throws OutOfBoundException; the computed index is never negative and never exceeds the cell count. A user expects every in-range point to have a cell; rounding makes the index equal to the cell count for some, so the lookup and Histogram::addSample throw. The constructor itself is undefined for NaN or overflowing extents.",
  "every triple of double vectors passed to the constructor and every double point",
  W+"all bit patterns and rounding effects.",
  [I+"data-structures/Grid.tpp: Grid, getIndex, getCell", I+"statistics/Histogram1v.tpp: addSample"])
p("NormalDistribution<1> and EstimatorML<NormalDistribution<1>> in IEEE doubles: an accepted variance is positive (expected; violated)",
  "With doubles every accepted variance that is not NaN is positive, and a rejected one changes nothing. A NaN variance passes the check variance <= 0, and the weighted estimator run on an empty range publishes NaN mean and variance flagged as valid.",
  "every double bit pattern and every reachable distribution",
  W+"all bit patterns.",
  [S+"statistics/NormalDistribution1v.cpp: setVariance", S+"statistics/EstimatorMLNormal1v.cpp: addPoints"])
p("EstimatorML<NormalDistribution<M>>: running estimate, order independence and weighted estimate",
  "After any list of points the mean is the component-wise arithmetic mean and the covariance the population covariance matrix; the result does not depend on the order or on the split into calls; the covariance is symmetric; the weighted estimator gives weighted mean and covariance and reports size mismatches.",
  "every dimension and every list of points and weights",
  W+"lists of any length in any dimension.",
  [I+"statistics/EstimatorMLNormalMv.tpp: addPoint, addPoints, reset"])
p("GammaDistribution: parameters, density, total mass, moments and mode",
  "Setters keep the cached normaliser and inverse scale consistent and reject non-positive values without changing anything; for every reachable distribution the density is the textbook one (0 for negative arguments), integrates to 1 given the gamma integral, mean is shape/invScale, variance shape/invScale^2 (proved by integration for integer shapes), and the mode maximises the density.",
  "every history of setter calls, every argument",
  W+"the continuum of parameters and arguments.",
  [I+"statistics/GammaDistribution.tpp: GammaDistribution, setShape, setInvScale, pdf, getMean, getMode, getVariance"])
p("ChiSquareDistribution: degrees and median approximation",
  "The degrees of freedom read back are those given and non-positive ones are rejected; the published median approximation lies strictly between 0 and the mean exactly when degrees > 2/9.",
  "every degrees of freedom",
  W+"the continuum of parameters.",
  [I+"statistics/ChiSquareDistribution.tpp: setDegrees, getDegrees, getMedian"])
p("Randomizer: integral sampleUniform is uniform on [min, max] (expected; violated)",
  "For integral types the value returned is min + round(r/RAND_MAX*(max-min)); which generator outputs give which value is characterised exactly. The two end points get only half the outputs of an interior value.",
  "every support without overflow and every generator output",
  W+"all supports and outputs; the bias is invisible in a handful of samples.",
  ["incremental_calibration/include/aslam/calibration/statistics/Randomizer.tpp: sampleUniform"])
p("SampleDistribution::getSamples returns exactly the requested number of samples",
  "getSamples(samples, n) replaces whatever was in the vector by exactly n samples, those n successive getSample calls give; if one of them throws, the vector holds the samples before it.",
  "every n, every distribution, every previous content, every failure point",
  W+"every count and failure point.",
  [I+"statistics/SampleDistribution.tpp: getSamples"])
p("Randomizer: seeding makes the samples reproducible (expected; violated in part)",
  "After setSeed(z) the numbers drawn depend on z only, as long as nobody reseeds and no Randomizer instantiation is default-constructed for the first time. The seed given to the constructor has no effect, and the first default construction of another instantiation replaces the user's seed by one from the clock.",
  "every sequence of constructions, setSeed calls and draws in a program",
  W+"every interleaving of constructions and draws.",
  [I+"statistics/Randomizer.tpp: Randomizer, setSeed, getSeed"])
p("Inverting a transformation given by its matrix (expected; violated)",
  "After setTransformationMatrix (or construction from a matrix), a user expects inverse()/getInverse() to undo the transformation; the rotation used by the inversion is not taken from the matrix, so the result is unrelated unless it happens to match.",
  "every transformation matrix and every earlier state of the object",
  W+"the continuum of matrices.",
  [I+"geometry/Transformation2d.tpp: setTransformationMatrix, inverse, getInverse", I+"geometry/Transformation3d.tpp: setTransformationMatrix, inverse, getInverse"])
p("Timestamp: conversion to timespec is normalised (expected; violated)",
  "A user expects tv_sec + tv_nsec*1e-9 to be within a nanosecond of the timestamp and 0 <= tv_nsec < 1e9. This holds for times in [0, 2^63); negative times give negative nanoseconds, NaN, infinite and huge times are undefined behaviour.",
  "every double",
  W+"all doubles.",
  ["incremental_calibration/src/base/Timestamp.cpp: operator timespec"])
p("Calibrators: error terms exist exactly for the usable measurements",
  "In the time-delay and car calibrators a measurement of a window gives its error terms iff, after adding the current time delay, it lies at least delayBound inside the spline's time range (and passes the cut-off, forward-motion and tolerance tests of its kind); hence no error term evaluates a spline outside its range for any delay within the bound.",
  "every window of measurements, every delay, bound, option set and estimator state",
  W+"every window and delay.",
  [E+"time_delay/src/algo/Calibrator.cpp: addLeftWheelErrorTerms, addRightWheelErrorTerms, addPoseErrorTerms", E+"car/src/algo/CarCalibrator.cpp: addVelocitiesErrorTerms, addDMIErrorTerms, addFrontWheelsErrorTerms, addRearWheelsErrorTerms, addSteeringErrorTerms"])
p("Car calibrator: the rear wheel variances weight the rear wheel errors (expected; violated)",
  "A user expects the options rlwVariance and rrwVariance to be the variances of the rear wheels' error terms; they have no effect, the rear wheels use flwVariance and frwVariance.",
  "every option set and window",
  W+"all option values and windows.",
  [E+"car/src/algo/CarCalibrator.cpp: addRearWheelsErrorTerms", E+"car/include/aslam/calibration/car/algo/CarCalibratorOptions.h"])
p("Calibrators: number of spline segments",
  "With distinct first and last time stamps and splineKnotsPerSecond >= 1 the splines of a window get at least one and at most as many segments as poses, and at least splineKnotsPerSecond per second unless there are fewer poses. If the first and the last pose have the same time stamp the number is undefined (division by zero converted to int).",
  "every list of pose time stamps and every number of knots per second",
  W+"every list of time stamps.",
  [E+"time_delay/src/algo/Calibrator.cpp: initSplines", E+"car/src/algo/CarCalibrator.cpp: initSplines"])
p("Egomotion calibrator: recovery after a gap of the reference sensor (expected; violated)",
  "A user expects calibration to go on when the reference sensor comes back. Once a window has elapsed without a measurement of the reference sensor, every later addMotionMeasurement throws std::out_of_range and drops its measurement, also those of the reference sensor, for ever.",
  "every later stream of measurements",
  W+"every stream after the gap.",
  [E+"egomotion_sensors/src/algo/Calibrator.cpp: addMotionMeasurement, addMeasurement, addMeasurements, initSplines"])
p("Calibrators: a failing add call has no other effect (expected; violated)",
  "A user expects that an add call that throws did not touch the measurements already given. If building the splines throws, only the new measurement is lost; if the estimator throws, the whole pending window is lost too.",
  "every calibrator state and measurement",
  W+"every state and failure point.",
  [E+"time_delay/src/algo/Calibrator.cpp: addMeasurement, addMeasurements", E+"car/src/algo/CarCalibrator.cpp: addMeasurement, addMeasurements", E+"egomotion_sensors/src/algo/Calibrator.cpp: addMeasurement, addMeasurements"])
p("Egomotion calibrator: every motion measurement gives an error term (expected; violated)",
  "A window with n measurements of a sensor inside the spline's time range gives exactly n-1 error terms, between successive measurements if the time stamps are sorted; the first measurement of every window is never used, and with unsorted time stamps a skipped measurement makes the next motion be compared over the wrong interval.",
  "every sequence of motion measurements of a sensor and every time range",
  W+"every sequence.",
  [E+"egomotion_sensors/src/algo/Calibrator.cpp: addMotionErrorTerms"])
p("OptimizationProblemSpline::addSpline inserts, activates and keeps the spline",
  "addSpline with variables that are not yet in the problem appends all of them to the group in order, activates them and makes the spline the last one returned by the accessors; adding a spline with a variable that is already present throws and keeps the lists of splines.",
  "all problems, splines and groups", W+"every problem and spline.",
  [E+"car/src/algo/OptimizationProblemSpline.cpp: addSpline", E+"time_delay/src/algo/OptimizationProblemSpline.cpp", E+"egomotion_sensors/src/algo/OptimizationProblemSpline.cpp"])
p("The splines an OptimizationProblemSpline lists and the variables it holds (expected; violated)",
  "A user expects that the variables of every listed spline are in the problem and that every variable inserted by addSpline belongs to a spline the problem keeps alive. The first fails after clear() (not overridden), the second when addSpline is rejected half-way; both hold without those.",
  "all histories of calls", W+"every history.",
  [E+"car/src/algo/OptimizationProblemSpline.cpp: addSpline", I+"core/OptimizationProblem.h: clear"])
p("CameraCalibrator goes on after a failure of the estimator or a change of the batch size (expected; violated)",
  "A user expects to be able to go on after an exception. If the optimisation throws, the batch stays in the estimator: no observation is ever accepted again and every later processBatch throws InvalidOperationException. If the exception leaves after the batch has been removed, or the batch size is set to zero or to at most the number of images waiting, adding images never triggers processing again. A second processBatch in a row hands a batch without images to the estimator; before the first image it does nothing.",
  "every history of calls before and after", W+"every history and failure point.",
  [E+"camera/src/camera/CameraCalibrator.cpp: addImage, processBatch, initBatch, getOptions"])
p("Camera statistics and CameraValidator bookkeeping",
  "After any sequence of images the validator lists the errors (predicted minus observed) of exactly the comparable corners of the images with a target, in order, each with its squared norm over sigma2; the reported maxima are the largest absolute errors (0 if none); the outliers are the errors strictly outside of the quantile, never more for a larger quantile; an image without target changes nothing. The calibrator's maxima and outlier counts are those of its error lists.",
  "every sequence of images and corners, every quantile", W+"every sequence of images.",
  [E+"camera/src/camera/CameraValidator.cpp: addImage, getNumOutliers", E+"camera/src/camera/CameraCalibrator.cpp: getStatistics"])
p("CameraValidator::getLastImage prints the average error norm (expected; violated)",
  "A user expects the printed average to be the mean error norm of the corners drawn. It is the sum over the compared corners divided by the number of all corners: equal to the mean if all corners are compared, strictly smaller if one is skipped and some error is not zero.",
  "every observation of the target", W+"every observation.",
  [E+"camera/src/camera/CameraValidator.cpp: getLastImage"])
p("VisionDataAssociation: which frames are kept",
  "With a previous frame, a frame is stored exactly if there are more tracks than the required number and at most half of them (rounded down) have a disparity not above the threshold; then it becomes the reference, gets the next id and its matches are appended. With enough tracks but too little disparity nothing changes; with too few tracks only the reference changes. Without a previous frame the frame becomes the reference and nothing else happens. The call is undefined exactly if there is a reference, no track and a negative required number.",
  "every state, frame and set of disparities, whatever the (uninitialised) thresholds contain", W+"every stream.",
  ["incremental_calibration_vision/src/vision/VisionDataAssociation.cpp: addImage"])
L2=E+"2dlrf/src/"
p("2D laser simulation: the sine wave path",
  "genSineWavePath returns exactly the requested number of controls (at least one; only the initial zero control if T is not positive); integrating the rotation rates gives at every step the heading of the tangent of amplitude*sin(2 pi frequency x), and the forward speed is the arc speed along that curve.",
  "every number of steps, amplitude, frequency and positive period", W+"every parameter set.",
  [L2+"2dlrf/utils.cpp: genSineWavePath"])
p("2D laser simulation: the error terms of simulated data are the simulated noise",
  "For any controls, landmarks and noise, the observation error of every simulated range and bearing at the true poses is exactly the noise that was added. The same is expected of the motion error and holds at every step where the heading is not wrapped; where the simulator wraps the heading the error is at least 2 pi/T minus the noise (ErrorTermMotion does not wrap). Along a sine wave path started with heading at most pi/2 away from the axis no wrap occurs.",
  "all controls, landmarks, noises and time steps", W+"every trajectory and noise.",
  [L2+"2dlrf/simulate-offline.cpp: main", L2+"2dlrf/ErrorTermMotion.cpp: evaluateErrorImplementation", L2+"2dlrf/ErrorTermObservation.cpp: evaluateErrorImplementation"])
p("initLandmarks: first sightings",
  "initLandmarks places every landmark where its first positive range puts it from the pose of that time step, and leaves never sighted landmarks at the origin; with exact data and poses it returns the true landmarks. A user expects the output to be defined for all data: with fewer measurement rows than poses it is undefined, and without rows the output argument is left as it was.",
  "all poses, measurements and calibrations", W+"all data.",
  [L2+"2dlrf/utils.cpp: initLandmarks"])
p("2D laser incremental program: partition into batches",
  "With a positive batch size every time step belongs to exactly one batch; the batch contains the poses of its steps, all landmarks and the calibration, and the motion and observations of all its steps but the first; building it never throws. While the optimiser returns, every addBatch returns: the problem finally contains exactly the accepted batches in order, the poses of exactly the accepted time steps, and landmarks and calibration iff a batch was accepted. With batch size zero the loop never ends.",
  "every number of steps, landmarks, batch size, options and sequence of optimiser outcomes", W+"every run.",
  [L2+"2dlrf/simulate-online-new.cpp: main", "incremental_calibration/src/core/IncrementalEstimator.cpp: addBatch"])
p("2D laser online program: only informative batches are kept",
  "If the batch size divides the number of steps, the loop ends; it keeps the first batch and every other batch exactly if the mutual information against the batches kept before exceeds the threshold; the reported calibration is the one of the kept batches; keeping k batches divided the determinant by more than 2^(2 miTol (k-1)). Otherwise the last round reads behind the end of the data.",
  "every number of steps, batch size, threshold and sequence of optimisation results", W+"every run.",
  [L2+"2dlrf/simulate-online.cpp: main"])
TD=E+"time_delay/src/simulation/simulationEngine.cpp"
EGO=E+"egomotion_sensors/src/simulation/simulationEngine.cpp"
p("Simulated motion model: rigid motion of the vehicle",
  "One step of the motion model moves the vehicle by dt times its velocity, expressed along its old attitude, and turns it by the angle |om| dt about the axis om of its own frame (not at all for rates up to machine epsilon); unit quaternions stay unit quaternions; a planar vehicle stays planar and its heading changes by om dt.",
  "every pose, velocity, rotation rate and time step", W+"every pose and rate.",
  [TD+": integrateMotionModel", EGO+": integrateMotionModel"])
p("Time-delay simulator: one record per step, consistent with each other",
  "With a positive step the simulation ends and records exactly one entry per step k dt < T in every list; poses follow from each other by the recorded velocities, which are the chord speed and turn rate of the sine curve; the wheel velocities are v -/+ b om, the measurements k times them, stamped k dt plus the delay, poses half a step later and transformed to the pose sensor; attitudes stay unit quaternions and the heading stays tangential to the curve. With a step that is not positive it never ends.",
  "every parameter set, initial pose and noise", W+"every parameter set.",
  [TD+": simulate, genSineBodyVel2d, genWheelVelocity"])
p("Time-delay simulator against calibrator: the true delay has zero residual",
  "Without noise, the wheel error terms of the calibrator vanish at the true parameters. It holds for scale factor, base line and velocity, but the delay must be given with the opposite sign: both simulator and calibrator add it, so that with the simulated delay itself the calibrator compares every measurement with the motion two delays later.",
  "every simulation and motion of the vehicle", W+"every trajectory.",
  [TD+": simulate", E+"time_delay/src/algo/Calibrator.cpp: addLeftWheelErrorTerms, addRightWheelErrorTerms"])
p("Egomotion simulator: trajectory",
  "With a positive step the trajectory has one pose per step, starting from the initial one, stamped k secToNsec(dt), each following from the previous one by the motion model with the velocities commanded for that type (straight: unit speed along the initial x axis; sine; random with noise; combined: all three in thirds), with unit quaternions on the side of the previous one. A user expects no step to be longer than the others: in the combined trajectory the first step of the sine and random phases starts again from the origin of the curve and covers the whole way since then.",
  "every type, parameter set and noise", W+"every parameter set.",
  [EGO+": simulate, genSineBodyVel2d, integrateMotionModel"])
p("Egomotion simulator: sensor data consistent between sensors and with the calibrator",
  "For every sensor there is exactly one measurement per pair of successive sampling times: the motion of the sensor between the two times, stamped with the later time plus the sensor's delay; noisy data differ by the noise only; sensors satisfy the hand-eye relation with the reference; the calibrator's prediction at the true delay and calibration equals the measurement, and its dead-reckoned initial trajectory is the true one seen from its start. A sensor without calibration makes the simulation throw; a step that rounds to zero nanoseconds makes it run for ever.",
  "every trajectory, set of sensors, calibration, delay, noise and sampling step", W+"every trajectory and set of sensors.",
  [EGO+": simulate", E+"egomotion_sensors/src/algo/Calibrator.cpp: addMotionErrorTerms, initSplines"])
CARP=E+"car/src/realworld/calibrator.cpp"
p("Car programs: every navigation solution becomes one pose and one velocity measurement",
  "For every log whose six topics differ and carry their message types, the program reads to the end; every navigation solution that follows a performance message yields exactly one pose and one velocity measurement, in order and with the same corrected time, and nothing else does: the position is the solution's place relative to the place of the first such solution in its east-north-up axes (the first is the origin, distances are preserved), the attitude is the body's attitude in these axes, the velocity is the measured velocity seen in the body, the rates are the measured ones in radians.",
  "every log file, configuration, Euler angle convention that represents rotations and time stamp corrector", W+"every log file.",
  [CARP+": main (navigation solutions)", E+"car/src/realworld/analyzer.cpp: main", "incremental_calibration/src/geo/geodetic.cpp"])
p("Car programs: the variances of poses and velocities (expected; violated)",
  "A user expects the covariance of each measurement to be the navigation system's, expressed in the axes of the measurement. The north, east and down variances are attached unrotated to the east, north, up coordinates of the position and to the body coordinates of the velocity: wrong unless north and east variances agree (position), respectively unless the vehicle is aligned; right for equal variances.",
  "every navigation solution and performance message", W+"every message.",
  [CARP+": main (covariances)"])
p("Car programs: wheels, steering and odometer",
  "Every wheel and steering message of an active sensor yields exactly one measurement with the values of the message, in order, stamped by that sensor's own corrector; inactive sensors yield none. Odometer messages yield one measurement for each but the first: the distance travelled since the previous message over the time since then, so that the measured speeds times the elapsed times sum to the distance travelled; a message with time -1 is expected to be like any other but makes the next one be skipped as if it were the first.",
  "every log file and configuration", W+"every log file.",
  [CARP+": main (front, rear, steering, DMI)"])
p("Car programs: from the log to the calibrator",
  "Every measurement read is given to the calibrator in order; when the program ends normally, either nothing is left unprocessed or fewer than two poses were left at the end (whose window is then silently not used). A user expects a diagnosis for a log that is not as configured: a message of another type on an active topic, or two sensors on one topic, is undefined behaviour; a log without performance messages silently yields no pose and no calibration.",
  "every log file, configuration and sequence of estimator outcomes", W+"every log file.",
  [CARP+": main", E+"car/src/algo/CarCalibrator.cpp: addMeasurement, addMeasurements, unprocessedMeasurements"])
CARX=E+"car/src/algo/CarCalibrator.cpp"
TDX=E+"time_delay/src/algo/Calibrator.cpp"
p("Car and time-delay calibrators: error terms compare the measurements with the velocities of the sensors' own points",
  "For every motion of the vehicle that the splines represent, the error terms built from the stored measurements are exactly these: one per measurement that passes the filters (delayed time and delay bound inside the splines, wheels not below the cutoff, vehicle not rolling backwards, front point fast enough for the steering), each given the true velocity, in body coordinates, of the point of the vehicle where the sensor sits (rear wheels at (0,+-e_r), front wheels at (L,+-e_f), steering at (L,0), odometer at the left rear wheel, navigation system at its lever arm and in its own axes) at the measurement's delayed time.",
  "every differentiable rigid motion, parameter value, option and set of stored measurements", W+"every motion.",
  [CARX+": addVelocitiesErrorTerms, addPoseErrorTerms, addDMIErrorTerms, addFrontWheelsErrorTerms, addRearWheelsErrorTerms, addSteeringErrorTerms", TDX+": addLeftWheelErrorTerms, addRightWheelErrorTerms"])
p("Car and time-delay calibrators: a window's splines start from the measured poses",
  "The positions and rotations the splines are fitted to put the navigation system, through its current lever arm and mounting, exactly where it was measured, so that splines through them have no pose error. A user expects an exact pose measurement to have zero error: at pitch +-90 degrees some exact measurement has a nonzero angle error whichever angles the library extracts.",
  "every list of poses, mounting and conversion between angles, matrices and quaternions that represents rotations", W+"every list of poses.",
  [CARX+": initSplines, predictPoses", TDX+": initSplines", E+"car/src/error-terms/ErrorTermPose.cpp"])
p("Car and time-delay calibrators: predictions report what the batch would contain",
  "predict() reports, for every measurement that yields error terms and for no other, the delayed time, the errors and the squared error of exactly the error terms addMeasurements() would create for the same stored measurements, and (car) the predicted value is the measurement minus the error (wheels, odometer, poses up to angle wrapping; for the steering the predicted value is the wheel angle); predictions accumulate until cleared. A user expects predict() to cope with fewer than two stored poses (undefined behaviour while addMeasurements() returns) and the time-delay example's predicted wheel speeds to agree with their errors (they are ground speeds, the errors use the forward velocity: they agree iff the wheel does not move sideways).",
  "every set of stored measurements, parameters, options and spline fit", W+"every set of measurements.",
  [CARX+": predict, predictPoses, predictVelocities, predictDMI, predictFrontWheels, predictRearWheels, predictSteering, clearPredictions", TDX+": predict, predictLeftWheel, predictRightWheel"])
EGOX=E+"egomotion_sensors/src/algo/Calibrator.cpp"
p("Egomotion calibrator: dead reckoning and the effect of predictions on it",
  "The splines of a window have as many segments as the knots per second ask for, or one per measurement if the measurements are rarer; they are fitted to poses that start where the previous window ended, at the beginning of the first motion, and of which each follows from the one before by the measured motion of the reference sensor at its time stamp; splines through these poses satisfy the reference sensor's error terms exactly. While no call fails and nothing is predicted, every motion of the reference sensor is integrated exactly once, in order. A user expects predict() to change nothing: it moves the start of the next splines on by the motion of the pending window, which is then integrated again. If the spline fit commutes with rigid motions this is harmless: leaving out all calls about predictions gives the estimator the same error terms and all other calls the same outcome.",
  "every history of calls, outcome of the estimator, calibration, order of the map and spline fit that commutes with rigid motions", W+"every history.",
  [EGOX+": initSplines, predict, addMeasurements, addMotionErrorTerms"])
p("Egomotion calibrator: error terms and predictions compare the measured with the sensor's own motion",
  "For a calibrated sensor there is one error term for each usable measurement but the first (reference sensor: every measurement; others: time minus delay, with the bound around it, inside the splines): it compares the measured motion with the motion of the sensor, as given by splines, delay and mounting, since the previous usable measurement, with the measurement's covariance. predict() appends for every sensor the predicted motions, errors and squared errors of exactly these error terms, with the raw time stamps; without measurements of the reference sensor it throws and changes nothing; a sensor without calibration makes it throw after the predictions of the sensors before it. addMeasurements() hands the estimator one batch with exactly these error terms of all sensors and forgets the measurements however the estimator ends, or, if splines or error terms cannot be built, hands over nothing and keeps everything; addMotionMeasurement() does so once the window has elapsed, before it stores the new measurement as the first of the next window.",
  "every set of measurements, splines, calibration and order of the sensors", W+"every set of measurements.",
  [EGOX+": addMotionErrorTerms, predictMotion, predict"])
p("Egomotion calibrator: a measurement of a sensor without calibration (expected; violated)",
  "A user expects an error for that measurement only. It is accepted silently; as soon as the window has elapsed every later add call of any sensor fails and drops its measurement, no batch is ever given to the estimator again, and every attempt integrates the pending motions of the reference sensor once more.",
  "every later stream of measurements", W+"every stream.",
  [EGOX+": addMotionMeasurement, addMeasurement, addMeasurements, addMotionErrorTerms"])
p("IncrementalEstimator: a throwing reoptimize or removeBatch leaves the published statistics consistent (expected; violated)",
  "If the marginal analysis fails after the optimizer returned, reoptimize() (and removeBatch(), which calls it) throws with the scaled covariance, bases and singular values of the new estimate already published next to the unscaled ones, ranks, costs and gain of the old, and with the variables already changed. Restricted claim: in every other case a throwing reoptimize() leaves all statistics unchanged; it returns iff the marginalised group is in the problem and optimizer and analysis return; it never changes the problem.",
  "every reachable state and every outcome of optimizer and linear solver", W+"every state and failure point.",
  ["incremental_calibration/src/core/IncrementalEstimator.cpp: reoptimize, removeBatch"])
p("IncrementalEstimator: construction from a configuration",
  "The constructor from a property tree returns exactly when groupId is an integer, every other key present (infoGainDelta, checkValidity, verbose, the linear solver's keys) converts to its type and the optimizer accepts its part; every option then has the value of its own key, or its default if the key is absent. A user expects the marginalised group to be the one given: a negative groupId is accepted and silently becomes 2^64 minus its absolute value.",
  "every configuration", W+"every configuration.",
  ["incremental_calibration/src/core/IncrementalEstimator.cpp: IncrementalEstimator(const sm::PropertyTree&)", "aslam_tsvd_solver/src/aslam-tsvd-solver.cc: createTsvdOptionsFromPropertyTree"])
p("Calibrators of the examples: options from a configuration",
  "For each of the three calibrators the options read are exactly those that agree, key by key, with the published table of keys, and the constructor throws exactly when some required key is absent or malformed. A user expects the wheel speed cutoff not to change its value and an absent order of the translation spline to give the default order 4: the cutoff is taken modulo 65536, and the order is uninitialised memory.",
  "every configuration and content of uninitialised memory", W+"every configuration.",
  [E+"car/src/algo/CarCalibratorOptions.cpp", E+"time_delay/src/algo/CalibratorOptions.cpp", E+"egomotion_sensors/src/algo/CalibratorOptions.cpp"])
p("Simulators of the examples: parameters from a configuration",
  "The simulation parameters read are exactly those under the published keys (time delay: wheel factors, delays, variances, mounting, trajectory; egomotion: for every sensor id the mounting, delay and noise of the last entry with that id, one noise entry more than sensors). A user expects the start pose of the time-delay trajectory to be configurable (it is always the identity) and the number of sensors simulated to be the number configured (entries with the same id overwrite each other silently).",
  "every configuration and conversion of angles to rotations", W+"every configuration.",
  [E+"time_delay/src/simulation/SimulationParams.cpp", E+"time_delay/src/simulation/TrajectoryParams.cpp", E+"egomotion_sensors/src/simulation/SimulationParams.cpp", E+"egomotion_sensors/src/simulation/TrajectoryParams.cpp"])
p("Linear solver adapter: what it passes to the solver and how failures surface",
  "solveSystem() and analyzeMarginal() hand the library the transpose of the Jacobian built last, the configured start of the marginalised columns and (solve) the current errors; they return true exactly when the library returned and otherwise fail exactly as the library does; they return false, leaving solution and solver untouched, exactly when the transposition gives no matrix; initMatrixStructure() clears the library's solver, builds the structure and ends the process for a diagonal conditioner. A user expects a failed analysis to reach them: the estimator ignores the false of analyzeMarginal() and publishes the statistics of the scaled system as those of the unscaled one.",
  "every library behaviour, system and sequence of calls", W+"every behaviour of the library.",
  ["aslam_tsvd_solver/src/aslam-tsvd-solver.cc", "incremental_calibration/src/core/IncrementalEstimator.cpp: addBatch, reoptimize"])
p("Linear solver adapter: the matrices it makes are released (expected; violated)",
  "Over any sequence of initMatrixStructure, buildSystem, solveSystem and analyzeMarginal calls the number of live matrices grows by exactly one for every solveSystem() in which the library threw, and is otherwise unchanged. A user expects it never to grow.",
  "every sequence of calls and failure pattern", W+"every sequence of calls.",
  ["aslam_tsvd_solver/src/aslam-tsvd-solver.cc"])
p("Time-delay simulator program: every simulated measurement reaches the estimator",
  "For a period of at least a nanosecond the simulation gives equally many measurements of the three kinds; fed to the calibrator in the program's order and flushed at the end, the program ends normally if neither the spline fit nor the estimator fails, and all measurements were handed to the estimator, in order and exactly once, except that a single last pose with its wheel measurements can stay behind.",
  "every simulation parameter set, noise, window length, spline fit and estimator", W+"every trajectory length and window.",
  [E+"time_delay/src/simulation/simulator.cpp", TDX+": addMeasurements, initSplines", E+"time_delay/src/simulation/SimulationEngine.cpp"])
p("Egomotion simulator program: every simulated measurement reaches the estimator",
  "When the program ends normally every simulated measurement of every sensor was handed to the estimator, in order and exactly once, and nothing is pending; it throws if the reference sensor is not simulated; if no sensor is delayed and neither fit nor estimator fails it ends normally. A user expects it to end normally with delays too: a delayed sensor after the reference sensor can close the last window, after which the flush without any reference measurement throws before a result is written.",
  "every set of sensors, delays, trajectories, window lengths and estimators", W+"every set of sensors and delays.",
  [E+"egomotion_sensors/src/simulation/simulator.cpp", EGOX+": addMeasurements, initSplines"])
p("Spline writers of the examples: sampled trajectory output",
  "For a positive period the writer outputs, batch by batch and spline by spline, exactly the points at minimum time plus multiples of the period strictly before the maximum time (never the last one); a batch with fewer rotation than translation splines throws after the points before it. A user expects termination and a defined error: with a period below one nanosecond it never ends, and for a batch without splines it dereferences a null pointer.",
  "every list of batches, splines and period", W+"every list of splines and period.",
  [E+"car/src/algo/splinesToFile.cpp", E+"time_delay/src/algo/splinesToFile.cpp", E+"egomotion_sensors/src/algo/splinesToFile.cpp"])
CAMX=E+"camera/src/camera/CameraCalibrator.cpp"
p("Camera calibration program: every image with the target reaches the estimator",
  "If some image initialises the geometry and the estimator does not fail, the program ends normally; every image in which the target is found, also before the initialising one, is given to the estimator exactly once and in order, in batches of exactly the configured size and a last one with the rest; a failing estimator ends the program with its exception. With image saving on, one image is saved for every batch accepted in the loop, the one that completed it. A user expects no empty batch (one is handed over when the size divides the number of targets), a log without target to give no result rather than an exception, and all images used to be saved.",
  "every log, outcome of detector and estimator, and batch size of at least 1", W+"every log.",
  [E+"camera/src/camera/calibrateCamera.cpp: main", CAMX+": initGeometry, addImage, processBatch"])
p("Camera calibration file: parameters, their standard deviations and the estimator's results",
  "After at least one accepted batch the file contains every projection and distortion parameter under its name, the square root of its entry of the covariance's diagonal under sigma_ and its name, the image size, the type, every singular value and every entry of the unobservable bases under its numbered key and both thresholds, and a validator reading the file uses the geometry the calibrator used; any type but omni and pinhole is refused. A user expects the file also without an accepted batch (undefined behaviour: empty vectors are read) and the standard deviations to be those of the named parameters: that depends on the order in which the set of variables enumerates them, and with the distortion first sigma_fu is the one of k1.",
  "every result of the estimator and every injective numbering without slashes", W+"every result.",
  [CAMX+": write, getProjectionStandardDeviation, getDistortionStandardDeviation, initBatch, initVisionFramework", E+"camera/src/camera/CameraValidator.cpp: initVisionFramework"])
p("Camera calibrator and validator: options from a configuration",
  "The options read are exactly those that agree, key by key, with the published table: five detector options are required, all others have defaults; the calibrator exists exactly when the options and the estimator's part can be read and the type is omni or pinhole (otherwise BadArgument); the validator, given the calibrator's section, looks for the same target with the same settings. A user expects the defaults of the five detector options to be used, a negative batch size to be refused (it becomes huge, and the whole log becomes one batch), and the estimator to report on the group the camera's variables are put into (two keys that nothing compares).",
  "every configuration", W+"every configuration.",
  [CAMX+": CameraCalibrator(const sm::PropertyTree&)", E+"camera/src/camera/CameraValidator.cpp: CameraValidator(const sm::PropertyTree&, const sm::PropertyTree&)"])
p("Exceptions: the text tells where and why", "what() of an exception thrown by the library is the function, the message, the file and the line, followed by the offending argument and the bound, in this order, each exactly when given; copying and assigning keep it; for the same message and place, two texts are equal only if line, argument and bound are.", "every message, place, argument and bound; every chain of copies and assignments", W+"every combination of given and omitted parts.", ["incremental_calibration/src/exceptions/Exception.cpp: Exception, what", I+"exceptions/OutOfBoundException.h, BadArgumentException.h", "incremental_calibration/src/exceptions/NullPointerException.cpp"])
p("Printing an object to a stream", "stream << object appends the object's description whatever kind of stream it is, and what was printed can be read back with stream >> object. The description of a distribution or estimator determines its parameters as printed; the description of a grid or histogram announces exactly the number of cell lines that follow and determines every cell.", "every object, every chain of insertions, every static type of the stream", W+"every sequence of insertions into console and file streams and every reachable grid.", ["incremental_calibration/src/base/Serializable.cpp: operator <<, operator >>", I+"data-structures/Grid.tpp: write", "incremental_calibration/src/statistics/NormalDistribution1v.cpp: write, read"])
p("Camera validation program: the report covers the whole log", "validateCamera compares every image of the log; the maxima, the number of outliers and the error files cover all comparable corners of all images with a target, in the order of the log; with visualization and saveImages, the image saved under a time stamp shows the image of that time stamp.", "every log (images with and without target), every combination of options", W+"every log and every order of found and missed targets.", [E+"camera/src/camera/validateCamera.cpp: main", E+"camera/src/camera/CameraValidator.cpp: addImage, getLastImage, getNumOutliers"])
p("Pose error term: the Jacobian is the derivative of the error",
  "For the pose error terms of the car and time-delay examples the matrix handed to the optimizer is the derivative of the evaluated error with respect to the perturbation of the transformation, for every transformation whose pitch is not +-90 degrees and every measurement whose angle errors are not at the jump of the angle reduction. A user expects a Jacobian everywhere: with the nose straight up or down a singular matrix is inverted.",
  "every differentiable motion of the transformation, every measurement, every extraction of angles and reduction of angles that satisfies its contract",
  W+"the claim ranges over the continuum and the test compares with numeric differences at one point.",
  [E+"car/src/error-terms/ErrorTermPose.cpp: evaluateJacobiansImplementation", E+"time_delay/src/error-terms/ErrorTermPose.cpp: evaluateJacobiansImplementation"])
p("NormalDistribution<M>: distance, density, samples and divergence fit together",
  "For every distribution that could be constructed: the Mahalanobis distance is the quadratic form of the inverse covariance, never negative and zero only at the mean; the density is positive, is exp(-distance/2) over the square root of (2 pi)^M times the determinant, is largest at the mean and only there, and its logarithm is the log-density; a sample made from standard normal numbers z has the distance |z|^2 and the density of z divided by the product of the factor's diagonal, and every point is such a sample; the Kullback-Leibler divergence is never negative and zero exactly for distributions with the same mean and covariance. A new estimator holds the standard normal distribution, no points and no valid estimate; reset empties it and keeps the distribution.",
  "every dimension, mean, accepted covariance and point", W+"every dimension and every positive definite matrix.",
  [I+"statistics/NormalDistributionMv.tpp: mahalanobisDistance, logpdf, pdf, getSample, KLDivergence", I+"statistics/EstimatorMLNormalMv.tpp: EstimatorML, reset"])
p("Singleton base class: one object, the same for every caller",
  "In every sequence of constructions, destructions and getInstance() calls by one thread there is at most one object; exists() says whether there is one; getInstance() returns it, creating it only if there is none, and returns the same object until it is destroyed; a second construction throws InvalidOperation and changes nothing; a failed constructor leaves no object. With several threads in getInstance() a null pointer is never dereferenced, and once the object exists all get it. A user expects that also of simultaneous first calls: one thread can get an exception, or two threads two different objects.",
  "every sequence of calls; every number of threads and every interleaving", W+"every interleaving.",
  [I+"base/Singleton.tpp: Singleton, ~Singleton, getInstance, exists"])
p("Python module: no program touches a destroyed object",
  "Whatever a Python program creates, looks up, adds, removes and drops, it never touches an estimator, incremental problem, linear solver or options object that has been destroyed; a program that never calls getOptimizationProblem, or in which no batch ever leaves an incremental problem, never touches any destroyed object, and a problem that the program made lives as long as its Python object has a name or an incremental problem that is alive holds it. A user expects this of every program: a problem obtained from getOptimizationProblem is destroyed when the batch is removed, also if it was added to another incremental problem, and offering it again to the estimator that holds it can leave the estimator with a destroyed batch.",
  "every sequence of calls of the exported functions and every dropping of names", W+"every order of calls and of the end of Python objects.",
  ["incremental_calibration_python/src/OptimizationProblem.cpp: exportOptimizationProblem", "incremental_calibration_python/src/IncrementalEstimator.cpp: exportIncrementalEstimator", "incremental_calibration_python/src/LinearSolver.cpp: exportLinearSolver"])
p("UniformDistribution<X> over every arithmetic type and several dimensions: total probability one",
  "For every support with minimum below maximum (in every component) the constructor succeeds and the probabilities of all values of the support add up to one (the density integrates to one for a floating type), every value in the support has the same probability and every other value has none; the stored variance is that of the values. This holds for float and double, for signed integers in one and several dimensions (when the support fits the type) and for unsigned integers except when the support is the whole type; it is refuted for that support and for long double.",
  "every type, width, dimension and support", W+"every width and every support.",
  [I+"statistics/UniformDistribution1v.tpp: setSupport, pdf, pmf, getVariance", I+"statistics/UniformDistributionMv.tpp: setSupport, pdf", I+"tpl/IsReal.h", I+"tpl/IsInteger.h"])
p("Randomizer over an integral type, and Poisson samples in doubles",
  "All samplers but sampleUniform draw from sampleUniform(), which for an integral type yields 0 or 1 depending on whether the generator's number is in the upper half of its range. So, exactly: samplePoisson returns the number of ones before the first zero, for every positive mean; in doubles it returns the number of factors for which the rounded running product stays above exp(-mean). Not guaranteed (counterexample proved): that a Poisson sample depends on the mean, that an exponential or geometric sample is ever positive, that a gamma sample is ever a positive finite number, that an inner category is ever sampled (integral types), and that in doubles two means beyond the range of exp give different samples.",
  "every generator, width of the integral type, parameter and state", W+"every state of the generator.",
  ["incremental_calibration/include/aslam/calibration/statistics/Randomizer.tpp: sampleUniform, samplePoisson, sampleExponential, sampleGeometric, sampleGamma, sampleCategorical", I+"statistics/Randomizer.h"])
p("EstimatorML of a one-dimensional normal distribution in IEEE doubles",
  "For whole-numbered points whose squares add up to at most 2^53, in doubles: count and running sums are exact; the order of the points changes neither count, sums, mean nor validity, nor the distribution if it is valid; for at most 2^26 points the mean is the exact mean rounded once and the computed variance differs from the variance by at most 16 units of 2^-53 of the mean square, it decides validity by its sign, and is what the distribution holds when valid. If moreover the number of points times the sum of squares is below 2^49, the estimate is valid exactly if two points differ. Not guaranteed (counterexample proved): that two different points are accepted (2^26 and 2^26 + 1 are not), that equal points are rejected (three times 0.1 are accepted), that the order never matters (2^53, 1, 1), and that an infinite or not-a-number point is rejected: from then on every estimate is called valid and its variance is not a number.",
  "every list of points and every former state of the estimator", W+"every list of points and their order.",
  ["incremental_calibration/src/statistics/EstimatorMLNormal1v.cpp: reset, addPoint, addPoints", "incremental_calibration/src/statistics/NormalDistribution1v.cpp: setVariance"])
p("Observability report of the calibrators: every printed number belongs to the printed name",
  "In verbose mode, after each addBatch the calibrators print one line per calibration parameter. For the time-delay and the egomotion calibrator, after any history of accepted, rejected and removed batches: if columns are scaled and all calibration variables are optimised, the report is complete and the number next to each name is the norm of the returned basis row of just that parameter; in every other case the report reads a row that does not exist. The rows follow the order in which the batches list the calibration variables, leaving out those that are not optimised. Not guaranteed (counterexample proved): with delays not optimised the time-delay report shows the right wheel's row under the left delay's name; the car calibrator never optimises the mounting, so its report always reads a row that does not exist, after having shown the delays, if any, under the names of the mounting.",
  "every history of the estimator, every batch, activity setting and number of sensors", W+"every history and every activity setting.",
  [E+"time_delay/src/algo/Calibrator.cpp: addMeasurements", E+"car/src/algo/CarCalibrator.cpp: addMeasurements", E+"egomotion_sensors/src/algo/Calibrator.cpp: addMeasurements", "incremental_calibration/src/core/IncrementalEstimator.cpp: addBatch", "incremental_calibration/src/core/IncrementalOptimizationProblem.cpp: add, getGroupDim"])
p("Random samples follow the named distribution, given independent uniform random numbers",
  "If the numbers of the generator, scaled to [0, 1], were independent and uniform, then: samplePoisson would return k with probability e^-mean mean^k / k!; sampleGeometric k with p (1-p)^k; "
  "sampleCategorical category k with p_k (probabilities adding up to exactly one); sampleExponential, sampleUniform over reals and sampleGamma with an integral shape a value below t with the probability "
  "that the exponential, uniform and gamma density give to the values below t; sampleNormal would return within n attempts, of two random numbers each, with probability 1 - (1 - pi/4)^n, and then a value between s and t with the probability that the normal density with the given mean and variance gives to it; and sampleGamma with a shape between 2^-52 and one accepts, per attempt of two random numbers, a value between s and t with a probability "
  "proportional to the integral of the gamma density from s to t, and returns the value of the first accepted attempt; with a shape n plus such a fraction it returns, within N attempts for the fraction, a value between s and t with the probability that the gamma density with this shape gives to the interval, times that of accepting one of N attempts. Precisely: the set of random numbers with which the sampler gives the result, as a part of the unit cube, "
  "has that volume. Refuted for sampleUniform over integers: the two ends of the range have half the probability of the other values.",
  "all parameters, all results and thresholds, all generators (for which numbers give which result)",
  W+"a probability is an integral over all possible random numbers; a test compares histograms.",
  ["incremental_calibration/include/aslam/calibration/statistics/Randomizer.tpp: sampleUniform, sampleCategorical, sampleNormal, samplePoisson, sampleExponential, sampleGeometric, sampleGamma"])
p("The description of an object shows its parameters under their names",
  "What an object prints to a console stream is a list of named values, and under each name stands the current value of that parameter: the mean and variance (covariance) last accepted by a normal distribution, support and support area of a uniform one, shape and inverse scale, the degrees a chi square distribution was made with, the transformation matrix; "
  "for an estimator the mean and variance of the points added since the last reset, their number, and 1 for valid exactly when there is an estimate; for a vector design variable its value, also in a file, and after revertUpdate the former text; "
  "for the calibration variables of the time-delay and egomotion examples the values getParameters exports. A refused value is never shown. The car's text also shows the two values its exported vector loses. The named values can be read back from the text. "
  "A Randomizer shows the seed it was made with, copied or given last; a default one the number the program's generator gave next, and the numbers drawn then are the following ones, each once, whatever is copied or assigned; a user expects this seed to reproduce the samples, which is refuted.",
  "every object state reachable by its setters, every history of Randomizer objects, every formatting of numbers",
  W+"every history of setters, points and seeds.",
  [I+"statistics/Randomizer.tpp: write, setSeed", I+"statistics/NormalDistributionMv.tpp: write", I+"statistics/UniformDistributionMv.tpp: write", I+"statistics/GammaDistribution.tpp: write", "incremental_calibration/src/statistics/EstimatorMLNormal1v.cpp: write", I+"data-structures/VectorDesignVariable.tpp: write", E+"car/src/design-variables/OdometryDesignVariables.cpp: write", E+"time_delay/src/design-variables/OdometryDesignVariables.cpp: write", E+"egomotion_sensors/src/design-variables/DesignVariables.cpp: write"])
p("The standard deviations the car calibration program writes belong to the names it writes",
  "After the last batch the program writes deviations.txt: 18 names, each followed by the square root of the estimator's variance of that parameter. A user expects 18 lines, each with the deviation of the named parameter. Refuted for every history of batches, accepted, rejected or failed: without an accepted batch the first entry read does not exist; otherwise twelve lines are right, then, if the delays are optimised, the four delays appear under the names of the mounting, and then an entry that does not exist is read (undefined behaviour; the program's other result files are written after this one). In general the file holds the fixed names next to the roots of the entries in their order, and is complete exactly if there are at least 18 entries.",
  "every history of batches, with and without delays", W+"every history of batches and every activity setting.",
  [E+"car/src/realworld/calibrator.cpp: main, 245-266", E+"car/src/algo/CarCalibrator.cpp: getOdometryVariablesVariance", "incremental_calibration/src/core/IncrementalEstimator.cpp: addBatch, getSigma2Theta"])
p("The data files of the car programs show what the calibrator was given",
  "While they read a log, the calibration and analysis programs write six data files. Whatever the log and the configuration, there is exactly one line for each measurement handed to the calibrator, in the same order, in the file of its kind and with all its numbers, and writing changes nothing about whether the log can be read. In a proper log, the times in a file are the header stamps of the messages that count, in their order: the navigation solutions after the first performance message, every message of an active wheel or steering sensor, and every odometer message but the first; a sensor that is not active has an empty file. Not guaranteed (counterexample proved): that the times are those the calibrator was given (these are corrected, those in the files are not).",
  "every log of messages, every configuration, every time stamp corrector", W+"every log.",
  [E+"car/src/realworld/calibrator.cpp: main, 76-243", E+"car/src/realworld/analyzer.cpp: main"])
p("History files of the example programs: one line per processed window",
  "Whatever measurements are added and whatever fails: infoGainHist.txt has exactly one line per window for which the estimator's addBatch returned, in order, with the information gain it returned; calibHist.txt has the initial parameters and then one line for each of the same windows with the parameters after it; the egomotion simulator writes such a file for every calibrated sensor, under different names. A user expects line i to belong to window i and only accepted windows to have a line; both fail.",
  "every sequence of calls of a calibrator, every estimator behaviour, every set of sensors",
  W+"every measurement stream and every failure of the estimator.",
  [E+"time_delay/src/simulation/simulator.cpp: main", E+"car/src/realworld/calibrator.cpp: main", E+"egomotion_sensors/src/simulation/simulator.cpp: main", E+"egomotion_sensors/src/algo/Calibrator.cpp: addMeasurements"])
p("Function objects: a value depends on the parameter written last and nothing else",
  "Incomplete gamma, log-gamma, log-factorial and digamma objects: whatever was constructed, copied, assigned, changed by setters and evaluated before, getAlpha/getDim return the parameter last given to this very object (a multivariate log-gamma made without a dimension has dimension one); operator() and getValue give the same value, that of the function for this parameter at the argument (the multivariate log-gamma by its recurrence, the log-factorial the logarithm of n!, the integer log-gamma that of (n-1)!, throwing BadArgument exactly at 0); evaluating changes nothing. If Boost's two incomplete gamma functions add up to one, so do a P and a Q object with the same parameter at any point of any program.",
  "every program of constructions, copies, assignments, setters and evaluations, every number of objects, every argument",
  W+"every history of constructions, copies, assignments and setters.",
  [I+"functions/Function.tpp: operator()", "incremental_calibration/src/functions/IncompleteGammaPFunction.cpp", "incremental_calibration/src/functions/IncompleteGammaQFunction.cpp", I+"functions/LogGammaFunction.tpp", "incremental_calibration/src/functions/LogGammaFunction.cpp", "incremental_calibration/src/functions/LogFactorialFunction.cpp", I+"functions/DigammaFunction.tpp"])
p("Distributions, estimators, grids and time stamps are values",
  "Normal (one and many dimensions), gamma, chi-square and uniform distributions, both estimators, grids, histograms and time stamps: in every program of constructions, copies, assignments (also of an object to itself) and calls, each object is in every member what a freshly constructed object becomes under its own history, where a copy or assignment takes over the history of its source. So copies cannot be told from their originals, and a call on one object changes no other.",
  "every program of constructions, copies, assignments and calls on any number of objects of a class",
  W+"every history and every number of objects.",
  ["incremental_calibration/src/statistics/NormalDistribution1v.cpp", I+"statistics/NormalDistributionMv.tpp", I+"statistics/GammaDistribution.tpp", "incremental_calibration/src/statistics/ChiSquareDistribution.cpp", I+"statistics/UniformDistribution1v.tpp", I+"statistics/UniformDistributionMv.tpp", "incremental_calibration/src/statistics/EstimatorMLNormal1v.cpp", I+"statistics/EstimatorMLNormalMv.tpp", I+"data-structures/Grid.tpp", I+"statistics/Histogram1v.tpp", I+"statistics/HistogramMv.tpp", "incremental_calibration/src/base/Timestamp.cpp"])
p("Type-level booleans compute the formulas they spell",
  "Every formula built from True, False, And, Or, Not, IfThenElse, Equals, IsVoid, IsReal, IsInteger and IsNumeric over any types, however deeply nested, compiles to True if it holds and to False otherwise; If<...>::Result and ...::Numeric exist exactly for formulas that hold; IfThenElse gives the first type if the formula holds and the second otherwise; of the two versions of a function selected by IsReal and IsInteger exactly one exists for each type.",
  "every formula of any depth over all types",
  W+"every formula and every type.",
  [I+"tpl/And.h", I+"tpl/Or.h", I+"tpl/Not.h", I+"tpl/If.h", I+"tpl/IfThenElse.h", I+"tpl/Equals.h", I+"tpl/IsVoid.h", I+"tpl/IsReal.h", I+"tpl/IsInteger.h", I+"tpl/IsNumeric.h", I+"tpl/Boolean.h"])
import os,sys; sys.path.insert(0,os.path.dirname(os.path.abspath(__file__)))
from restated import R
for x in P:
    if x['id'] in R: x['title'],x['statement']=R[x['id']]
with open('/verif/properties.jsonl','w') as f:
    for x in P: f.write(json.dumps(x)+"\n")
print(len(P))
