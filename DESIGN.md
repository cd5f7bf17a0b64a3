# Formal model of ethz-asl/aslam_incremental_calibration in Rocq (Coq 8.16.1)

## Method

* The C++ code was read as text; nothing was built or run. Every definition in a `*Model.v` cites the file and lines it models, and says where it simplifies.
* Stateful classes are records plus functions `state -> args -> state * result A` (or `outcome`), where `result` distinguishes normal
  return, each exception class, undefined behaviour (`UB`) and non-termination (`Diverge`, or `None` of a fuelled loop for every fuel). A C++ exception does not
  roll back: the returned state is the one the C++ object has when the exception leaves the method.
* Pointers to design variables, error terms and batches are opaque natural-number identities, a null `shared_ptr` is `None`. Batches
  are shared by pointer: the functions of `IncrementalOptimizationProblem` take the heap of batches as an argument.
* "For every history" is an inductive `reachable` predicate or a fold over an arbitrary list of operations, including calls that throw,
  unless the property says otherwise.
* What the code gets from outside (optimiser and linear solver results, random numbers, detectors, splines, Euler angles, clock) is
  a universally quantified argument of the model: theorems hold for every outcome.
* `double` is modelled per property, as stated in each file: exact reals (`R`, Coquelicot for derivatives and integrals),
  or IEEE binary64 (Flocq) where the point is rounding, NaN or overflow (Grid, Histogram, Normal, Randomizer, Timestamp). Theorems over `R` say nothing about rounding errors.
* Unsigned counters wrap at 2^64 where the code can decrement or overflow them.
* Where the unchanged code violates what a user would expect, the violation is proved (`..._refuted`, usually for every state in
  a class, at least with a concrete witness), and the strongest true property is proved beside it.
* Specifications are in `Spec_*.v`, written without the model's helpers; the theorems of the manifest are in `Properties_*.v`, each file ends with
  `Example`s that show that the hypotheses are met by concrete non-trivial cases and with `Print Assumptions`.
* Wrong programs: `seeded/LOG.jsonl` records one line per deliberately wrong edit of a model definition (made by `tools/mutate.py` in a
  scratch copy), the claim it breaks and the theorems that then fail.

## Files

| Files | Code |
|---|---|
| `Base` | outcome type |
| `Permute*` | `algorithms/permute.tpp` |
| `OptProblem*`, `Spec_OptProblem`, `OptSpecProofs` | `core/OptimizationProblem` |
| `IncProblem*`, `IncHistoryProofs`, `IncExtraProofs`, `IncSpecProofs`, `IncFailedAdd`, `Spec_IncProblem`, `Spec_IncFailedAdd` | `core/IncrementalOptimizationProblem` |
| `Estimator*`, `Spec_Estimator`, `Properties_CoreExtra` | `core/IncrementalEstimator` (and permutations, refused removals of the incremental problem) |
| `Grid*`, `Histogram*` and specs | `data-structures/Grid`, `statistics/Histogram1v` |
| `VectorDV*` | `data-structures/VectorDesignVariable` |
| `Normal*`, `NormalMv*`, `GaussIntegral`, `Uniform*`, `Gamma*`, `Functions*`, `Randomizer*`, `CoqDerive` | `statistics/*`, `functions/*` |
| `Geometry*`, `MatrixOps*`, `Timestamp*` | `geometry/Transformation2d/3d`, `algorithms/matrixOperations`, `base/Timestamp` |
| `Calibrator*` | `CarCalibrator`, time-delay and egomotion `Calibrator` (queues, windows, error terms, segments), `OptimizationProblemSpline` |
| `ErrorTerm*` | error terms of the 2dlrf, car and time-delay examples |
| `Geodetic*` | car `geo/geodetic`, `algo/bestQuat` |
| `DesignVars*` | `OdometryDesignVariables`, egomotion `DesignVariables` |
| `Camera*` | `CameraCalibrator`, `CameraValidator` |
| `Vision*` | `VisionDataAssociation` |
| `LrfSim*`, `LrfDriver*` | 2dlrf `utils`, `simulate-offline`, `simulate-online`, `simulate-online-new` |
| `SimEngine*`, `Properties_EgoSim`, `Properties_EgoData` | time-delay and egomotion `simulationEngine` |
| `Kinematics*` | car, time-delay calibrators: spline initialisation, kinematic expressions of the error terms, predictions |
| `EgoKin*` | egomotion calibrator: dead reckoning, motion error terms, predictions |
| `Options*`, `Spec_Options` | constructors from a `PropertyTree`: estimator, linear solver, calibrator options, simulation and trajectory parameters |
| `Solver*` | `aslam_tsvd_solver/src/aslam-tsvd-solver.cc` and its use by the estimator |
| `SimDriver*`, `Properties_SimRun` | main loops of the time-delay and egomotion simulators; `splinesToFile.cpp` |
| `CarDriver*` | car `realworld/calibrator`, `realworld/analyzer`: the loop over the log |
| `CameraDriverModel`, `CameraOptionsModel`, `Properties_CameraDriver`, `Properties_CameraFile`, `Properties_CameraOptions` | camera example: programs, calibration file, configuration |
| `Text*`, `Spec_Text` | `exceptions/*`, `base/Serializable`, the `write`/`read` methods |
| `ValidatorModel`, `Properties_ValidatorProgram` | camera `validateCamera` |
| `PoseJacobianModel`, `Spec_PoseJacobian`, `Properties_PoseJacobian` | `ErrorTermPose::evaluateJacobiansImplementation` (car, time-delay) |
| `Singleton*` | `base/Singleton.tpp` |
| `Python*` | `incremental_calibration_python/src`: lifetimes |
| `Properties_Tighten*` | theorems added because wrong programs survived the others |

## Plan and result per property

Model file, method of proof, and what is proved. `proved`: every sentence of the statement in `properties.jsonl` holds of the model, for all inputs it ranges over. Where the code does not do what a user would first expect, the statement says exactly what it does, and names after "Not guaranteed" the expectation, whose counterexample is a theorem `..._refuted` of the claim (or named in the note). `partial`: something stated is not proved (the note says what).

| Id | Property | Model | How proved | Status | Note |
|----|----|----|----|----|----|
| C01 | permute applies the permutation | `permute` as fuelled loop → `Properties_Permute` | cycle-chasing invariant; every swap keeps the multiset; pigeonhole for termination | proved | All containers, all permutations. |
| C02 | permute never loses or duplicates an element and rejects bad index vectors | `permute` as fuelled loop → `Properties_Permute` | cycle-chasing invariant; every swap keeps the multiset; pigeonhole for termination | proved |  |
| C03 | permute: exactly which index vectors make it return, throw or loop for ever | `permute` as fuelled loop → `Properties_Permute` | the orbit of an index under the vector; pigeonhole: an orbit that stays below i for i+1 steps stays there | proved | permute_outcome characterises all outcomes; termination on all in-range vectors is refuted. |
| C04 | OptimizationProblem: linear index enumerates every design variable exactly once, group by group | all six members of `OptimizationProblem` → `Properties_OptProblem` | well-formedness invariant by induction over histories; refinement to the flat list of variables | proved |  |
| C05 | OptimizationProblem: error terms only refer to design variables of the problem | all six members of `OptimizationProblem` → `Properties_OptProblem` | well-formedness invariant by induction over histories; refinement to the flat list of variables | proved |  |
| C06 | OptimizationProblem: add operations have exact effects and strong exception safety | all six members of `OptimizationProblem` → `Properties_OptProblem` | well-formedness invariant by induction over histories; refinement to the flat list of variables | proved |  |
| C07 | setGroupsOrdering accepts exactly the rearrangements of the current groups | all six members of `OptimizationProblem` → `Properties_IncProblem`, `Properties_OptProblem` | well-formedness invariant by induction over histories; refinement to the flat list of variables | proved |  |
| C08 | Group dimension accounting | all six members of `OptimizationProblem` → `Properties_IncProblem`, `Properties_OptProblem` | well-formedness invariant by induction over histories; refinement to the flat list of variables | proved |  |
| C09 | saveDesignVariables/restoreDesignVariables is an exact undo of value changes | all six members of `OptimizationProblem` → `Properties_IncProblem`, `Properties_OptProblem` | well-formedness invariant by induction over histories; refinement to the flat list of variables | proved | For the incremental problem: histories without clear() (see C17), and a variable that leaves the problem in between is not restored (its backup is erased). |
| C10 | Permutation entry points of both optimization problems only reorder within their scope | all six members of `OptimizationProblem` → `Properties_CoreExtra`, `Properties_OptProblem` | well-formedness invariant by induction over histories; refinement to the flat list of variables | proved |  |
| C11 | IncrementalOptimizationProblem: exact reference counting | `IncrementalOptimizationProblem` over a heap of batches, counts modulo 2^64 → `Properties_IncProblem` | reference-count invariant over histories; add/remove inverse; concrete histories for the refutations | proved |  |
| C12 | IncrementalOptimizationProblem: add followed by remove restores the exact problem state | `IncrementalOptimizationProblem` over a heap of batches, counts modulo 2^64 → `Properties_CoreExtra`, `Properties_IncProblem` | reference-count invariant over histories; add/remove inverse; concrete histories for the refutations | proved | By index always; by pointer the batch sequence is restored exactly when the batch was not already contained (always true for a batch with an error term); the exception is exhibited. |
| C13 | IncrementalOptimizationProblem: flat indices enumerate variables and error terms exactly once | `IncrementalOptimizationProblem` over a heap of batches, counts modulo 2^64 → `Properties_IncProblem` | reference-count invariant over histories; add/remove inverse; concrete histories for the refutations | proved |  |
| C14 | IncrementalOptimizationProblem: no error term is contained twice | `IncrementalOptimizationProblem` over a heap of batches, counts modulo 2^64 → `Properties_IncProblem` | reference-count invariant over histories; add/remove inverse; concrete histories for the refutations | proved |  |
| C15 | What a failed IncrementalOptimizationProblem::add leaves behind | `IncrementalOptimizationProblem` over a heap of batches, counts modulo 2^64 → `Properties_IncProblem` | reference-count invariant over histories; add/remove inverse; concrete histories for the refutations | proved | Exactly what a failing add leaves behind; the expectation of no effect is refuted by witnesses for both failure causes. |
| C16 | Removing batches is order independent | `IncrementalOptimizationProblem` over a heap of batches, counts modulo 2^64 → `Properties_IncProblem` | reference-count invariant over histories; add/remove inverse; concrete histories for the refutations | proved |  |
| C17 | What clear makes the incremental problem forget | `IncrementalOptimizationProblem` over a heap of batches, counts modulo 2^64 → `Properties_Exact`, `Properties_IncProblem` | reference-count invariant over histories; add/remove inverse; concrete histories for the refutations | proved | Everything stated is proved. The stronger expectation: refuted for the backup; everything else is cleared. |
| C18 | Removing a batch that was changed after it was added | `IncrementalOptimizationProblem` over a heap of batches, counts modulo 2^64 → `Properties_Exact`, `Properties_IncProblem` | reference-count invariant over histories; add/remove inverse; concrete histories for the refutations | proved | Everything stated is proved. The stronger expectation: refuted for mutated batches; proved for unmutated ones. |
| C19 | IncrementalEstimator: acceptance rule | `IncrementalEstimator` with arbitrary optimiser and solver outcomes → `Properties_CoreExtra`, `Properties_Estimator` | case analysis over the layers below; induction over histories of add/remove/reoptimize | proved |  |
| C20 | IncrementalEstimator: a rejected batch leaves no trace | `IncrementalEstimator` with arbitrary optimiser and solver outcomes → `Properties_Estimator` | case analysis over the layers below; induction over histories of add/remove/reoptimize | proved | The batch sequence itself is only equal up to order when the same batch object without error terms was already contained (remove() by pointer takes the first occurrence). |
| C21 | IncrementalEstimator: the marginalised group is always the trailing column block | `IncrementalEstimator` with arbitrary optimiser and solver outcomes → `Properties_Estimator`, `Properties_Report` | case analysis over the layers below; induction over histories of add/remove/reoptimize | proved |  |
| C22 | IncrementalEstimator: information gains telescope | `IncrementalEstimator` with arbitrary optimiser and solver outcomes → `Properties_Estimator` | case analysis over the layers below; induction over histories of add/remove/reoptimize | proved | Exact arithmetic (R). |
| C23 | What a throwing addBatch leaves behind | `IncrementalEstimator` with arbitrary optimiser and solver outcomes → `Properties_Estimator`, `Properties_Exact` | case analysis over the layers below; induction over histories of add/remove/reoptimize | proved | Everything stated is proved. The stronger expectation: refuted as stated; statistics are unchanged by a throwing addBatch. |
| C24 | IncrementalEstimator: removeBatch | `IncrementalEstimator` with arbitrary optimiser and solver outcomes → `Properties_Estimator` | case analysis over the layers below; induction over histories of add/remove/reoptimize | proved |  |
| C25 | Linear solver layout after a rejection is a disjoint gap-free tiling | `IncrementalEstimator` with arbitrary optimiser and solver outcomes → `Properties_Estimator` | case analysis over the layers below; induction over histories of add/remove/reoptimize | proved |  |
| C26 | Grid: valid cell indices map one-to-one onto the cell storage | `Grid` with abstract coordinates, instances R and Z → `Properties_Grid` | mixed-radix bijection by induction on the dimension; floor arithmetic | proved |  |
| C27 | Grid: incrementIndex enumerates every cell exactly once | `Grid` with abstract coordinates, instances R and Z → `Properties_Grid` | mixed-radix bijection by induction on the dimension; floor arithmetic | proved |  |
| C28 | Grid: every in-range point is mapped to the cell that contains it | `Grid` with abstract coordinates, instances R and Z → `Properties_Grid` | mixed-radix bijection by induction on the dimension; floor arithmetic | proved |  |
| C29 | Grid: cell centre round trip, and where it fails | `Grid` with abstract coordinates, instances R and Z → `Properties_Grid`, `Properties_Tighten` | mixed-radix bijection by induction on the dimension; floor arithmetic | proved |  |
| C30 | Grid: which indices are rejected | `Grid` with abstract coordinates, instances R and Z → `Properties_Exact2`, `Properties_Grid`, `Properties_Tighten3` | mixed-radix bijection by induction on the dimension; floor arithmetic | proved | Everything stated is proved. The stronger expectation: refuted for negative indices; the exact condition for the exception is proved. |
| C31 | Histogram: counts equal the number of samples per bin | `Histogram1v` on the grid model → `Properties_Histogram` | induction over samples; sums | proved |  |
| C32 | Histogram summary statistics | `Histogram1v` on the grid model → `Properties_Histogram`, `Properties_Tighten3` | induction over samples; sums | proved | Exact arithmetic; empty histograms (division by zero) excluded. |
| C33 | VectorDesignVariable: revertUpdate undoes exactly the last change and parameters round-trip | `VectorDesignVariable` → `Properties_Tighten8`, `Properties_VectorDV` | induction over histories | proved |  |
| C34 | EstimatorML<NormalDistribution<1>>: running estimate equals the batch formula and is order independent | normal distributions and ML estimators over R → `Properties_Normal`, `Properties_Tighten4` | sums, Cholesky algebra, Gaussian integral (proved in `GaussIntegral`) | proved | Exact arithmetic (R), fewer than 2^32 points; beyond that the claim is refuted. |
| C35 | NormalDistribution<1>: cached quantities are consistent and rejected variances change nothing | normal distributions and ML estimators over R → `Properties_Normal`, `Properties_NormalMoments`, `Properties_Tighten12` | sums, Cholesky algebra, Gaussian integral (proved in `GaussIntegral`) | proved | Exact arithmetic (R). |
| C36 | What a rejected covariance does to NormalDistribution<M> | normal distributions and ML estimators over R → `Properties_NormalMv` | sums, Cholesky algebra, Gaussian integral (proved in `GaussIntegral`) | proved | Everything stated is proved. The stronger expectation: refuted for symmetric matrices that are not positive definite; the rest is proved. |
| C37 | UniformDistribution: support, density and moments | uniform distributions over R and Z → `Properties_Uniform` | algebra, integrals | proved | Everything but the midpoint mean is proved; that is refuted, with the exact condition. |
| C38 | Multivariate uniform covariance | uniform distributions over R and Z → `Properties_Uniform` | algebra, integrals | proved | What a user expects first is refuted; the exact condition under which it holds is proved. |
| C39 | GammaDistribution KL divergence | gamma and chi-square over R → `Properties_Gamma`, `Properties_GammaKL` | Coquelicot integrals, induction on the shape for integer shapes, digamma as parameter | proved | What a user expects first is refuted (the divergence can be wrong and negative); the exact condition for agreement is proved. |
| C40 | Randomizer: samples stay in their documented range | `Randomizer` over a stream of generator outputs, R and binary64 → `Properties_Randomizer`, `Properties_Tighten4` | case analysis, termination of rejection loops, counting of outputs, witnesses | proved | Proved in exact arithmetic for every sampler; refuted for sampleUniform in doubles, for sampleNormal of integral types and sampleGeometric with tiny probabilities. |
| C41 | sampleCategorical and categories of probability zero | `Randomizer` over a stream of generator outputs, R and binary64 → `Properties_Randomizer` | case analysis, termination of rejection loops, counting of outputs, witnesses | proved | Everything stated is proved. The stronger expectation: refuted; holds when the sum is exactly 1 and the random number is not 0. |
| C42 | LogFactorial and integer LogGamma | log-factorial functions over R → `Properties_Gamma` | induction | proved | Exact arithmetic (R). |
| C43 | Transformations: getInverse undoes the transformation | transformations over R → `Properties_Geometry`, `Properties_Tighten11` | ring/trigonometry | proved | Exact arithmetic (R). |
| C44 | Inverting a transformation twice | transformations over R → `Properties_Geometry` | ring/trigonometry | proved | What a user expects first is refuted; the exact condition under which it holds is proved. |
| C45 | computeSumLogDiagR | `computeSumLogDiagR` over R → `Properties_MatrixOps` | induction over columns | proved | Exact arithmetic (R); the row bound is not checked by the code, the undefined cases are characterised. |
| C46 | Calibrators: every measurement is processed exactly once | measurement queues, windows and error terms of the three calibrators; splines and estimator arbitrary → `Properties_Calibrator`, `Properties_Tighten`, `Properties_Tighten10` | induction over measurement streams | proved | Integer time stamps; the windows of all three calibrators, splines and estimator as parameters. |
| C47 | OdometryDesignVariables: what is calibrated and exported | design variable classes on the problem model → `Properties_DesignVars`, `Properties_Tighten6`, `Properties_Tighten8` | computation of all entries for arbitrary values | proved | Proved for the time-delay and egomotion examples, refuted for the car. |
| C48 | CameraCalibrator: batching and observation bookkeeping | `CameraCalibrator` on the estimator model → `Properties_Camera` | induction over images and histories | proved | Batching is proved while the estimator does not throw; getTransformation is refuted for two accepted batches. |
| C49 | bestQuat returns the equivalent quaternion closest to the previous one | quaternions, WGS84 and local frames over R → `Properties_Geodetic` | ring/trigonometry, derivative of the meridian | proved | Exact arithmetic (R). |
| C50 | Error-term Jacobians are the derivatives of the residuals | error terms and Jacobians over R → `Properties_ErrorTerm` | `derivable_pt_lim` for every entry | proved | Proved for all modelled error terms except the front wheels of the car, where it is refuted for a wheel that rolls backwards; the steering Jacobian is undefined for a wheel that moves sideways. The pose error term is C116. |
| C51 | The weight of an error term is that of its first covariance | error terms and Jacobians over R → `Properties_ErrorTerm` | `derivable_pt_lim` for every entry | proved | Everything stated is proved; the stronger expectation it names is refuted. |
| C52 | Geodetic frame conversions are rigid and mutually inverse | quaternions, WGS84 and local frames over R → `Properties_Geodetic`, `Properties_Tighten11` | ring/trigonometry, derivative of the meridian | proved | Exact arithmetic (R); transformations modelled by matrices. |
| C53 | VisionDataAssociation: frame ids and stored frames | `VisionDataAssociation`; pipeline and matcher arbitrary → `Properties_Tighten3`, `Properties_Vision` | induction over frames | proved | Ids proved; the first end of matches is refuted for reference frames that are not stored. |
| C54 | Timestamp is totally ordered and arithmetic is consistent | `Timestamp` over binary64 → `Properties_Timestamp` | Flocq | proved | IEEE doubles: the order is proved except for NaN; add/subtract is refuted in general and proved for exact sums. |
| C55 | IncrementalOptimizationProblem: add succeeds exactly on compatible batches | `IncrementalOptimizationProblem` over a heap of batches, counts modulo 2^64 → `Properties_IncProblem`, `Properties_Report` | reference-count invariant over histories; add/remove inverse; concrete histories for the refutations | proved |  |
| C56 | IncrementalOptimizationProblem: no undefined behaviour in any history | `IncrementalOptimizationProblem` over a heap of batches, counts modulo 2^64 → `Properties_IncProblem` | reference-count invariant over histories; add/remove inverse; concrete histories for the refutations | proved |  |
| C57 | IncrementalEstimator: the problem contains exactly the accepted batches | `IncrementalEstimator` with arbitrary optimiser and solver outcomes → `Properties_Estimator` | case analysis over the layers below; induction over histories of add/remove/reoptimize | proved |  |
| C58 | IncrementalEstimator: getters agree with the last accepted result | `IncrementalEstimator` with arbitrary optimiser and solver outcomes → `Properties_Estimator`, `Properties_Tighten13` | case analysis over the layers below; induction over histories of add/remove/reoptimize | proved | Includes that the options, activity flags and marginalised group are those the user set last, and values written by the user persist. |
| C59 | Grid and Histogram with IEEE doubles: lookups never hit undefined behaviour | `Grid`, `Histogram` over Flocq binary64 → `Properties_Grid`, `Properties_Histogram` | Flocq rounding lemmas; computed witnesses | proved | No undefined behaviour in lookups is proved for all doubles; that every in-range point has a cell is refuted. |
| C60 | NormalDistribution<1> and EstimatorML<NormalDistribution<1>> in IEEE doubles: accepted variances | normal distribution over binary64 → `Properties_Normal`, `Properties_Tighten4` | computation, Flocq comparison lemmas | proved | Everything stated is proved. The stronger expectation: refuted for NaN. |
| C61 | EstimatorML<NormalDistribution<M>>: running estimate, order independence and weighted estimate | normal distributions and ML estimators over R → `Properties_NormalMv` | sums, Cholesky algebra, Gaussian integral (proved in `GaussIntegral`) | proved | Exact arithmetic (R). |
| C62 | GammaDistribution: parameters, density, total mass, moments and mode | gamma and chi-square over R → `Properties_Gamma`, `Properties_Tighten4` | Coquelicot integrals, induction on the shape for integer shapes, digamma as parameter | proved | Exact arithmetic (R). |
| C63 | ChiSquareDistribution: degrees and median approximation | gamma and chi-square over R → `Properties_Gamma` | Coquelicot integrals, induction on the shape for integer shapes, digamma as parameter | proved | Exact arithmetic (R). |
| C64 | Randomizer: the distribution of integral sampleUniform | `Randomizer` over a stream of generator outputs, R and binary64 → `Properties_Randomizer` | case analysis, termination of rejection loops, counting of outputs, witnesses | proved | Everything stated is proved. The stronger expectation: refuted; the exact distribution is characterised. |
| C65 | SampleDistribution::getSamples returns exactly the requested number of samples | `Randomizer` over a stream of generator outputs, R and binary64 → `Properties_Randomizer` | case analysis, termination of rejection loops, counting of outputs, witnesses | proved |  |
| C66 | Randomizer: when seeding makes the samples reproducible | `Randomizer` over a stream of generator outputs, R and binary64 → `Properties_Randomizer` | case analysis, termination of rejection loops, counting of outputs, witnesses | proved | Everything stated is proved. The stronger expectation: refuted for the constructor's seed and for first default constructions. |
| C67 | Inverting a transformation given by its matrix | transformations over R → `Properties_Geometry`, `Properties_Tighten11` | ring/trigonometry | proved | What a user expects first is refuted. Everything stated is proved. |
| C68 | Timestamp: conversion to timespec | `Timestamp` over binary64 → `Properties_Exact3`, `Properties_Timestamp` | Flocq | proved | Everything stated is proved. The stronger expectation: refuted for negative, NaN and huge times. |
| C69 | Calibrators: error terms exist exactly for the usable measurements | measurement queues, windows and error terms of the three calibrators; splines and estimator arbitrary → `Properties_Calibrator` | induction over measurement streams | proved |  |
| C70 | Car calibrator: which variances weight the wheel errors | measurement queues, windows and error terms of the three calibrators; splines and estimator arbitrary → `Properties_Calibrator` | induction over measurement streams | proved | Everything stated is proved; the stronger expectation it names is refuted. |
| C71 | Calibrators: number of spline segments | measurement queues, windows and error terms of the three calibrators; splines and estimator arbitrary → `Properties_Calibrator`, `Properties_SimRun`, `Properties_Tighten`, `Properties_Tighten10` | induction over measurement streams | proved | The undefined case is part of the statement and is proved by spline_segments_refuted. |
| C72 | Egomotion calibrator: a gap of the reference sensor is fatal | measurement queues, windows and error terms of the three calibrators; splines and estimator arbitrary → `Properties_Calibrator` | induction over measurement streams | proved | Everything stated is proved; the stronger expectation it names is refuted. |
| C73 | Calibrators: what a failing add call loses | measurement queues, windows and error terms of the three calibrators; splines and estimator arbitrary → `Properties_Calibrator` | induction over measurement streams | proved | Everything stated is proved; the stronger expectation it names is refuted. |
| C74 | Egomotion calibrator: which motion measurements give an error term | measurement queues, windows and error terms of the three calibrators; splines and estimator arbitrary → `Properties_Calibrator` | induction over measurement streams | proved | Everything stated is proved; the stronger expectation it names is refuted. |
| C75 | OptimizationProblemSpline::addSpline inserts, activates and keeps the spline | `OptimizationProblemSpline` on the problem model → `Properties_DesignVars` | induction over histories | proved |  |
| C76 | The splines an OptimizationProblemSpline lists and the variables it holds | `OptimizationProblemSpline` on the problem model → `Properties_DesignVars`, `Properties_Deviations`, `Properties_Exact2`, `Properties_Tighten6`, `Properties_Tighten8` | induction over histories | proved | Everything stated is proved; the stronger expectation it names is refuted. |
| C77 | CameraCalibrator after a failure of the estimator or a change of the batch size | `CameraCalibrator` on the estimator model → `Properties_Camera` | induction over images and histories | proved | Everything stated is proved; the stronger expectation it names is refuted. |
| C78 | Camera statistics and CameraValidator bookkeeping | statistics and validator over R → `Properties_CameraValidator` | sums | proved | Exact arithmetic (R); detector and camera geometry as parameters. |
| C79 | The average error norm printed by CameraValidator::getLastImage | statistics and validator over R → `Properties_CameraValidator` | sums | proved | Everything stated is proved; the stronger expectation it names is refuted. |
| C80 | VisionDataAssociation: which frames are kept | `VisionDataAssociation`; pipeline and matcher arbitrary → `Properties_Vision` | induction over frames | proved | Disparities over R; pipeline and matcher as parameters; the thresholds, never initialised by the code, are arbitrary values. |
| C81 | 2D laser simulation: the sine wave path | 2D laser simulator over R → `Properties_LrfSim` | induction over steps, trigonometry | proved | Exact arithmetic (R). |
| C82 | 2D laser simulation: the error terms of simulated data are the simulated noise | 2D laser simulator over R → `Properties_LrfSim`, `Properties_Tighten7` | induction over steps, trigonometry | proved | Motion error refuted at heading wraps. |
| C83 | initLandmarks: first sightings | 2D laser simulator over R → `Properties_LrfSim` | induction over steps, trigonometry | proved | Proved for data with as many rows as poses; refuted otherwise. |
| C84 | 2D laser incremental program: partition into batches | 2D laser programs on the estimator model / over R → `Properties_LrfDriver` | induction over rounds | proved |  |
| C85 | 2D laser online program: only informative batches are kept | 2D laser programs on the estimator model / over R → `Properties_LrfDriver`, `Properties_Tighten7` | induction over rounds | proved | Exact arithmetic (R); the optimisation result of each round is arbitrary. |
| C86 | Simulated motion model: rigid motion of the vehicle | time-delay simulator over R → `Properties_SimEngine`, `Properties_Tighten7` | quaternion algebra (Rodrigues), induction over steps | proved | Exact arithmetic; the quaternion functions of sm_kinematics are modelled from their documentation. |
| C87 | Time-delay simulator: one record per step, consistent with each other | time-delay simulator over R → `Properties_SimEngine`, `Properties_Tighten7` | quaternion algebra (Rodrigues), induction over steps | proved | Exact arithmetic. |
| C88 | Time-delay simulator against calibrator: where the residual vanishes | time-delay simulator over R → `Properties_SimEngine` | quaternion algebra (Rodrigues), induction over steps | proved | The delay's sign is refuted: the residual vanishes for minus the simulated delay. |
| C89 | Egomotion simulator: trajectory | egomotion simulator over R, splines arbitrary → `Properties_EgoSim` | induction over steps and times; rigid-motion algebra | proved | Uniform steps refuted for the combined trajectory (ego_combined_jump); the spline fit is not modelled. |
| C90 | Egomotion simulator: sensor data consistent between sensors and with the calibrator | egomotion simulator over R, splines arbitrary → `Properties_EgoData` | induction over steps and times; rigid-motion algebra | proved | The fitted splines are a parameter. |
| C91 | Car programs: every navigation solution becomes one pose and one velocity measurement | the loop of the car programs over the messages of a log, on the calibrator model → `Properties_CarDriver` | induction over the log with projections to each kind of measurement; rigid-motion algebra | proved | Exact arithmetic; Euler angles and the time stamp corrector are parameters (an Euler angle convention meeting the hypotheses is constructed). |
| C92 | Car programs: the variances of poses and velocities | the loop of the car programs over the messages of a log, on the calibrator model → `Properties_CarDriver`, `Properties_Tighten2` | induction over the log with projections to each kind of measurement; rigid-motion algebra | proved | Everything stated is proved; the stronger expectation it names is refuted. |
| C93 | Car programs: wheels, steering and odometer | the loop of the car programs over the messages of a log, on the calibrator model → `Properties_CarDriver` | induction over the log with projections to each kind of measurement; rigid-motion algebra | proved | Proved for odometer times other than -1; refuted for a message stamped -1 s. |
| C94 | Car programs: from the log to the calibrator | the loop of the car programs over the messages of a log, on the calibrator model → `Properties_CarDriver`, `Properties_Tighten2` | induction over the log with projections to each kind of measurement; rigid-motion algebra | proved | Conservation proved; the expected diagnoses are refuted. |
| C95 | Car and time-delay calibrators: error terms compare the measurements with the velocities of the sensors' own points | the kinematic expressions the error terms are built from, the poses the splines are fitted to and the predictions, over splines given as functions of time → `Properties_Kinematics`, `Properties_TdPredict` | derivatives of rigid motions; rotation algebra; induction over the stored measurements | proved | Exact arithmetic; the fitted splines and their derivative expressions are a parameter (they represent some differentiable motion). |
| C96 | Car and time-delay calibrators: a window's splines start from the measured poses | the kinematic expressions the error terms are built from, the poses the splines are fitted to and the predictions, over splines given as functions of time → `Properties_Kinematics` | derivatives of rigid motions; rotation algebra; induction over the stored measurements | proved | Everything stated is proved. The stronger expectation: refuted at pitch 90 degrees; the rest proved. |
| C97 | Car and time-delay calibrators: predictions report what the batch would contain | the kinematic expressions the error terms are built from, the poses the splines are fitted to and the predictions, over splines given as functions of time → `Properties_Kinematics`, `Properties_TdPredict`, `Properties_Tighten12`, `Properties_Tighten6` | derivatives of rigid motions; rotation algebra; induction over the stored measurements | proved | The car's predictions are proved consistent; refuted for fewer than two poses and for the time-delay example's predicted values. |
| C98 | Egomotion calibrator: dead reckoning and the effect of predictions on it | the egomotion calibrator with its integrated pose, the motion error terms and the predictions → `Properties_EgoKin`, `Properties_Tighten3` | algebra of rigid motions; invariants over histories; a simulation relation up to a rigid motion | proved | Everything proved except that predict() changes nothing, which is refuted; its harmlessness assumes that the library's spline fit commutes with rigid motions. |
| C99 | Egomotion calibrator: error terms and predictions compare the measured with the sensor's own motion | the egomotion calibrator with its integrated pose, the motion error terms and the predictions → `Properties_EgoKin` | algebra of rigid motions; invariants over histories; a simulation relation up to a rigid motion | proved | Exact arithmetic; splines and the error function are parameters. |
| C100 | Egomotion calibrator: a measurement of a sensor without calibration is fatal | the egomotion calibrator with its integrated pose, the motion error terms and the predictions → `Properties_EgoKin` | algebra of rigid motions; invariants over histories; a simulation relation up to a rigid motion | proved | Everything stated is proved; the stronger expectation it names is refuted. |
| C101 | IncrementalEstimator: what a throwing reoptimize or removeBatch publishes | estimator model with three kinds of solver failure → `Properties_Estimator` | case analysis over the exact description of reoptimize | proved | Everything stated is proved. The stronger expectation: refuted when the marginal analysis throws; the exact outcome is proved. |
| C102 | IncrementalEstimator: construction from a configuration | the constructors that read a property tree, the tree as an arbitrary function from keys to entries → `Properties_Options` | inversion of the chain of reads; induction over the sensors; witnesses | proved | Exact reading proved; refuted for a negative groupId. The optimizer's own constructor is a parameter. |
| C103 | Calibrators of the examples: options from a configuration | the constructors that read a property tree, the tree as an arbitrary function from keys to entries → `Properties_Options`, `Properties_Tighten5` | inversion of the chain of reads; induction over the sensors; witnesses | proved | Exact reading proved; refuted for cutoffs outside 16 bits and for an absent order of the translation spline. |
| C104 | Simulators of the examples: parameters from a configuration | the constructors that read a property tree, the tree as an arbitrary function from keys to entries → `Properties_Options`, `Properties_Tighten5` | inversion of the chain of reads; induction over the sensors; witnesses | proved | Exact reading proved; refuted for repeated sensor ids. |
| C105 | Linear solver adapter: what it passes to the solver and how failures surface | the adapter of the linear solver on an arbitrary library, and the estimator above it → `Properties_Solver`, `Properties_SolverHistory` | case analysis; induction over the calls | proved | Adapter proved; refuted that a failed analysis surfaces. |
| C106 | Linear solver adapter: which matrices are released | the adapter of the linear solver on an arbitrary library, and the estimator above it → `Properties_Solver` | case analysis; induction over the calls | proved | The exact count is proved; that nothing leaks is refuted. |
| C107 | Time-delay simulator program: every simulated measurement reaches the estimator | the simulators' main loops on the calibrator and simulation models; the spline writers → `Properties_SimDriver`, `Properties_SimRun` | induction over the measurements and the sampled points | proved | Splines and estimator are parameters. |
| C108 | Egomotion simulator program: every simulated measurement reaches the estimator | the simulators' main loops on the calibrator and simulation models; the spline writers → `Properties_SimDriver`, `Properties_SimRun` | induction over the measurements and the sampled points | proved | Conservation proved; normal end proved without delays and refuted with them. |
| C109 | Spline writers of the examples: sampled trajectory output | the simulators' main loops on the calibrator and simulation models; the spline writers → `Properties_SimDriver` | induction over the measurements and the sampled points | proved | Exact output proved; termination for periods below a nanosecond and batches without splines refuted. Text formatting is not modelled. |
| C110 | Camera calibration program: every image with the target reaches the estimator | the camera programs on the calibrator model, the calibration file as a list of keyed values, the options on the model of the property tree → `Properties_CameraDriver` | induction over the images; case analysis; injectivity of the numbered keys | proved | Exact sequence of batches and saved images proved; empty last batch, exception for a log without target and unsaved images refuted. The detector and the estimator's decision are inputs. |
| C111 | Camera calibration file: parameters, their standard deviations and the estimator's results | the camera programs on the calibrator model, the calibration file as a list of keyed values, the options on the model of the property tree → `Properties_CameraFile`, `Properties_Tighten` | induction over the images; case analysis; injectivity of the numbered keys | proved | Content of the file proved for every result with an accepted batch; without one undefined; standard deviations refuted for one of the two enumeration orders of the variables. |
| C112 | Camera calibrator and validator: options from a configuration | the camera programs on the calibrator model, the calibration file as a list of keyed values, the options on the model of the property tree → `Properties_CameraOptions`, `Properties_Tighten`, `Properties_Tighten8` | induction over the images; case analysis; injectivity of the numbered keys | proved | Key by key equivalence proved; defaults of the detector options, negative batch sizes and group ids refuted. The property tree and the optimizer's own options are external. |
| C113 | Exceptions: the text tells where and why | the text of exceptions and objects as strings, the overload chosen by the static type of the stream → `Properties_Text` | strings are cut at the first bracket or newline; induction over chains of insertions | proved | Proved for texts without NUL (and, for unambiguity, printed values without closing bracket); refuted otherwise. |
| C114 | Printing an object to a stream | the text of exceptions and objects as strings, the overload chosen by the static type of the stream → `Properties_Text` | strings are cut at the first bracket or newline; induction over chains of insertions | proved | Texts proved; refuted that a file gets what the console gets and that reading restores anything. Formatting of numbers is a parameter. |
| C115 | Camera validation program: the report covers the whole log | the loop of validateCamera on the validator model, the image writer as a parameter → `Properties_Tighten9`, `Properties_ValidatorProgram` | induction over the log from the end | proved | Report proved for every log; refuted that a saved image belongs to its time stamp, and that there is a report when the first image to save has no target. Detector and image writer are parameters. |
| C116 | Pose error term: the Jacobian is the derivative of the error | Jacobian of the pose error term over R; the library's perturbation convention as specification → `Properties_PoseJacobian` | half-angle formula for the derivative of reduced angles; uniqueness of the S matrix; `nsatz` | proved | Proved wherever the matrix exists; refuted at pitch +-90 degrees. The S matrix of the library is characterised uniquely by its documented property; the perturbation convention of the library's transformation expressions is part of the specification. |
| C117 | NormalDistribution<M>: distance, density, samples and divergence fit together | `NormalDistribution<M>` with Eigen's decompositions by contract → `Properties_NormalMv2` | forward substitution in the Cholesky factor turns the quadratic forms into sums of squares; t - 1 - ln t >= 0 for the divergence | proved | Exact arithmetic (R); Eigen's Cholesky factor, inverse and determinant by their contracts. |
| C118 | Singleton base class: one object, the same for every caller | `Singleton<C>`: one thread as a state machine, several threads as interleavings of single accesses → `Properties_Singleton` | invariant of reachable states and of all schedules; concrete schedules for the refuted part | proved | One thread proved; simultaneous first calls refuted. The class declaration is not in the repository; an access to the static member is one step. |
| C119 | Python module: which programs never touch a destroyed object | which Python and C++ objects keep each other alive, as a graph; calls change the graph and touch objects → `Properties_Python` | paths in the graph are preserved by calls that remove no edge; closed sets of nodes for the refuted part | proved | Proved for programs without getOptimizationProblem and for programs in which no batch leaves a problem; refuted when both occur. Boost.Python's call policies and conversions are taken from its manual. |
| C120 | UniformDistribution<X> over every arithmetic type and several dimensions: total probability one | the type classification and the uniform distributions over unsigned integers and integer vectors → `Properties_Tighten9`, `Properties_UniformTypes` | the area as the number of points of the box, sums over the box, integrals | proved | Proved for float, double, signed integers in any dimension and unsigned integers whose support is not the whole type; refuted for the whole unsigned type (area 0, variance -1/12) and for long double (classified as an integer). Floating types in exact arithmetic. |
| C121 | Randomizer over an integral type, and Poisson samples in doubles | the samplers over an integral type (the same model with integral draws); samplePoisson with Flocq's binary64 operations → `Properties_RandomizerTypes` | induction over the draws | proved | The exact samples; what a user would expect instead is refuted. The library's exp in doubles is an argument (poisson_double) with the one property that it is 0 below the smallest double (the refutation). |
| C122 | EstimatorML of a one-dimensional normal distribution in IEEE doubles | the estimator model of C34 with Flocq's binary64 operations → `Properties_EstDouble` | exactness of sums of integers below 2^53, standard rounding-error analysis of the variance formula, evaluation for the refuted part | proved | Everything stated is proved in Flocq's binary64, for whole-numbered points; the expectations beyond that range are refuted by concrete points. |
| C123 | Observability report of the calibrators: every printed number belongs to the printed name | the printing loops (a missing row is undefined behaviour), on top of the estimator, incremental problem and design variable models → `Properties_Report` | invariant: if all batches bring the same list in the marginalised group, every optimizer start sees that list in that order | proved | Everything stated is proved, assuming that the linear solver's row space has one row per column of the marginal block; the expectation that every name gets its own number is refuted for partly optimised variables and for the car. |
| C124 | Random samples follow the named distribution, given independent uniform random numbers | the sampler model of C40; a separate definition of the volume of a part of the unit cube as an iterated Riemann integral → `Properties_GammaLaw`, `Properties_GammaShapeLaw`, `Properties_NormalLaw`, `Properties_SamplerLaw` | the set of random numbers that give a result, then its volume by induction over the number of draws (Poisson, gamma with integral shape), by an interval (the others), by substitution (gamma with a shape below one), or by slices of the unit square under the curve the polar method maps to a constant, whose area is a Gaussian integral, and a recursion over the attempts (normal); for the gamma distribution with integral part and fraction, the recurrence between the incomplete gamma integrals of neighbouring shapes, by parts, gives the volume of the sum of the exponential and the fractional sample | proved | Exact arithmetic (R). Volumes are iterated Riemann integrals (Spec_Volume.v). The law of sampleGamma for every shape is gamma_integer_law when the shape is integral and gamma_shape_law otherwise (a fraction below 2^-52 is taken for zero by the code). |
| C125 | The description of an object shows its parameters under their names | `TextObjectsModel`: the texts in terms of the members of the objects modelled elsewhere; Randomizer objects and their seeds → `Properties_TextObjects`, `Properties_Tighten11` | the texts against a separate grammar of named values (`Spec_Document.v`), with the theorems about the values (C34, C37, C47, C61, C63) | proved | Everything stated is proved; estimators in exact arithmetic and for fewer than 2^32 points (beyond, see C34). Refuted: the shown seed of a Randomizer reproduces its samples. Formatting of numbers, rows and matrices is a parameter. |
| C126 | The standard deviations the car calibration program writes belong to the names it writes | `DeviationsModel`: the writing loop over the diagonal of the covariance, a missing entry is undefined behaviour; the estimator model → `Properties_Deviations` | invariant over all sequences of addBatch: the covariance is empty or has one diagonal entry per optimised component | proved | The expectation is refuted for every history; what the file holds instead is proved, assuming that the linear solver's covariance has one diagonal entry per column of the marginal block. The text of the numbers is left out (C113). |
| C127 | The data files of the car programs show what the calibrator was given | `CarFilesModel`: what each step of the reading loop writes, next to the loop of `CarDriverModel` → `Properties_CarFiles` | each step writes one line per call it makes; then induction over the log, with the steps of a proper log | proved | Everything stated is proved, in exact arithmetic, for a log that is read to its end (an exception of the calibrator ends the program). An odometer message at time -1 is taken for none (C93) and excluded from the statement about the order of the times. The text of the numbers is left out (C113). |
| C128 | History files of the example programs: one line per processed window | `HistoryFilesModel`: the writing loops over the histories of the calibrator model → `Properties_HistoryFiles` | the lines of a text as a separate function; the invariant of the histories (C46) | proved | Everything stated is proved, for numbers and rows whose text has no newline; their formatting is a parameter. Refuted: line numbers are window numbers; only accepted windows have lines. |
| C129 | Function objects: a value depends on the parameter written last and nothing else | `FunctionObjModel`: objects of six classes in a growing list, their constructors, copies, assignments, setters, virtual getValue and operator() → `Properties_FunctionObj` | kind and last parameter of an object read off the program backwards; invariant over all programs | proved | Everything stated is proved in exact arithmetic with Boost's and cmath's functions as parameters; complementarity of Boost's P and Q is an explicit hypothesis. Refuted: substitutability of the integer log-gamma. |
| C130 | Distributions, estimators, grids and time stamps are values | `ValuesModel`: copy constructors and assignment operators member by member, programs over a growing list of objects of one class; that members are not shared between objects is built in → `Properties_Values` | the biography of an object read off the program backwards; invariant over all programs | proved | Proved for the copy constructors and assignment operators member by member; a call is any function on the members of its object. That members are not shared is a fact about their types (numbers, vectors, Eigen matrices) and is built into the model. |
| C131 | Type-level booleans compute the formulas they spell | `TemplatesModel`: types, type expressions and their instantiation by the matching specialisation, substitution failure as None → `Properties_Templates` | induction over formulas; all types by cases | proved | Everything stated is proved for the compiler's choice of specialisations as modelled. Refuted: what the names IsInteger and IsNumeric promise; rejection of arguments that are no truth values. |

## What is and is not modelled

Modelled: the functions listed above, at the granularity of one C++ function per definition. Not modelled: external libraries (aslam_backend
optimiser, truncated_svd_solver numerics, Eigen, sm, boost, ROS, OpenCV, camera models, bsplines) except as arbitrary parameters or, where their documented
function is needed (Eigen LLT, sm_kinematics quaternions), as their mathematical meaning; threads; memory allocation failure;
logging and file output except those listed (C109, C111, C113, C114, C123, C125, C126, C127, C128); the digits of floating point numbers; the python bindings except for the lifetimes of the objects (`PythonModel.v`); plot scripts; `main` functions other than those listed.

## Findings (behaviour of the code a user would not expect; the theorem that establishes each is in the manifest)

* permute: loops for ever on some in-range index vectors with duplicates (C03).
* IncrementalOptimizationProblem: a failing add leaves variables behind (C15); clear keeps the value backup (C17); mutating a batch after add makes counts wrap (C18).
* IncrementalEstimator: throwing addBatch keeps the batch (C23); margStartIndex of the linear solver is stale after a rejection (harmless, C25).
* IncrementalEstimator: a reoptimize whose marginal analysis throws publishes the new scaled statistics next to the old rest (C101); a negative groupId wraps (C102).
* Configurations: the car's wheel speed cutoff is truncated to 16 bits, an absent translation spline order is uninitialised (C103); the time-delay start pose cannot be configured, repeated egomotion sensor ids overwrite each other (C104).
* Grid: negative indices pass the checks (C30); centre of the last cell may be out of range, integral grids with negative minimum truncate toward zero (C29); with
  doubles an in-range point can get index = cell count, NaN/overflowing extents pass the constructor (C59).
* Normal: NaN variance accepted, weighted estimator on an empty range publishes NaN as valid (C60); rejected covariance overwrites the Cholesky factor (C36); n*n wraps at 2^32 points (C34).
* Uniform: mean and median are half the width (C37); multivariate covariance uses the total area (C38). Gamma: KL divergence wrong and possibly negative (C39); chi-square median negative below 2/9 degrees (C63).
* Randomizer: end points of integral sampleUniform have half weight (C64); double sampleUniform can exceed max, integral sampleNormal never returns,
  sampleGeometric undefined for tiny p (C40); categorical can return a zero-probability category (C41); constructor seed ignored, first default construction reseeds (C66).
* Transformations: second inverse wrong (C44); inverse after setTransformationMatrix uses stale rotation (C67). computeSumLogDiagR does not check the row bound (C45).
* Timestamp: negative times give negative nanoseconds, NaN/huge undefined (C68); add/subtract not inverse (C54).
* Calibrators: rear wheel variances ignored (C70); window with one time stamp undefined (C71); egomotion calibrator stuck after a reference gap (C72); estimator exception loses the window (C73); first
  motion of each window unused, unsorted stamps compared over the wrong interval (C74).
* Error terms: front wheel Jacobian has the wrong sign when rolling backwards, steering Jacobian 0/0 at standstill (C50); setCovariance without effect (C51).
* Car getParameters: entry 11 overwritten, entry 21 uninitialised (C47). OptimizationProblemSpline: clear keeps the splines, rejected addSpline leaves a prefix; the egomotion copy checks spline indices in debug builds only (C76).
* Camera: exception during optimisation is fatal, full batch never retried (C77); getTransformation(i) is not the pose of observation i after two accepted batches (C48); printed average divides by all corners (C79).
* Vision: thresholds never initialised (C80); reference frames not stored, so match sources dangle (C53).
* 2D laser: motion error term does not wrap the heading (C82); initLandmarks undefined for short data (C83); batch size 0 never ends (C84); last partial batch read out of bounds (C85).
* Time-delay simulator and calibrator disagree on the sign of the delay (C88). Egomotion combined trajectory jumps between phases (C89); missing calibration throws, zero step never ends (C90).
* Car programs: NED variances attached to ENU and body coordinates (C92); odometer time -1 is the "no message yet" mark (C93); wrong message type or shared topic undefined, no performance message: nothing estimated, silently (C94).
* Egomotion: predict() and failed windows integrate the reference motions again (C98); a measurement of an uncalibrated sensor blocks the calibrator for ever (C100).
* Linear solver adapter: a throwing solve leaks a matrix (C106); the estimator ignores a failed marginal analysis (C105).
* Egomotion simulator: a delayed sensor can make the final flush throw before any result is written (C108). Spline writers: never end for periods below 1 ns, null pointer for batches without splines (C109).
* Camera programs: an empty last batch, nothing but an exception for a log without target (C110); writing the calibration file without an accepted batch is undefined, standard deviations depend on addresses (C111);
  negative batch sizes, group ids that nothing compares (C112); the shipped conf/config.xml is not well-formed (`<rows>6</cols>`).
* validateCamera saves an older image under the time stamp of an image without target, and may end without a report if the log does not begin with the target (C115).
* Singleton: simultaneous first calls can throw or give two objects (C118). Python: a problem from getOptimizationProblem dangles after the batch is removed (C119).
* Randomizer over an integral type: Poisson samples ignore the mean, exponential and geometric samples are 0, gamma samples 0 or infinite, inner categories never sampled; in doubles Poisson means above about 746 are indistinguishable (C121).
* EstimatorML in doubles: different points can be rejected and equal ones accepted; one infinite or not-a-number point makes every later estimate valid with a not-a-number variance (C122).
* History files of the example programs: windows for which addBatch threw have no line, rejected windows have one (C128).
* LogGammaFunction<size_t> derives from LogFactorialFunction but gives ln (n-1)! and throws at 0 (C129).
* tpl: IsInteger holds for every type but float and double, also void, const double and long double; Or of two types that are no truth values is True (C131).
* Verbose observability report: labels are fixed although inactive variables have no row: wrong numbers under some names and reads beyond the matrix; always so for the car calibrator (C123), whose program also reads beyond the variances when it writes deviations.txt (C126).
* UniformDistribution: a support that is a whole unsigned type has area 0 and variance -1/12; long double is treated as an integer (C120).
* Streams: an object inserted directly into an `std::ofstream` writes nothing (except a vector design variable), reading does nothing (C114); the seed a Randomizer prints need not be that of its samples (C125); a NUL hides the rest of an exception's text (C113).
* Pose errors of exact measurements at pitch 90 degrees (C96). predict() with fewer than two poses is undefined; the steering prediction is an angle, not a raw steering value; time-delay wheel predictions
  are ground speeds stamped with the raw time while the errors use the forward velocity and the car stamps the delayed time (C97).

## Trusted base

* Coq 8.16.1's kernel, including `vm_compute` where used; no `native_compute`, no plugin, no switched-off check.
* The standard library's axioms only: those of the classical reals (`ClassicalDedekindReals.sig_forall_dec`, `sig_not_dec`), `functional_extensionality_dep`, and (through Coquelicot, Flocq and the trigonometric
  functions) `Classical_Prop.classic`. No axioms of our own; no Admitted; no Variable/Hypothesis outside sections. std++, Coquelicot and Flocq add no axioms.
* The reading of the C++ code into Gallina, the specifications in `Spec_*.v`, and the definitions used in the statements.

### Print Assumptions, per theorem of the manifest

**Closed under the global context (no axioms)** (243 theorems):

* `Properties_Permute`: permute_applies_permutation, permute_preserves_elements, permute_rejects_bad_indices, permute_outcome, permute_terminates_on_distinct, permute_termination_refuted
* `Properties_OptProblem`: opt_problem_enumeration, opt_problem_group_is_kept, opt_problem_absent, opt_problem_error_terms, opt_problem_get_errors, opt_problem_add_variable, opt_problem_add_error_term, opt_problem_set_ordering, opt_problem_group_dims, opt_problem_save_restore, opt_problem_permute_variables, opt_problem_permute_error_terms
* `Properties_IncProblem`: inc_problem_set_ordering, inc_problem_group_dims, inc_problem_save_restore, inc_problem_reference_counts, inc_problem_add_then_remove, inc_problem_remove_pointer_sequence_refuted, inc_problem_enumeration, inc_problem_access, inc_problem_error_terms_once, inc_problem_failed_add_refuted, inc_problem_failed_add_keeps, inc_problem_failed_add_state, inc_problem_removal_commutes, inc_problem_removal_order_irrelevant, inc_problem_clear_backup_refuted, inc_problem_clear_empties, opt_problem_clear_forgets_backup, inc_problem_mutated_batch_refuted, inc_problem_clean_removal, inc_problem_add_succeeds_iff, inc_problem_add_effect, inc_problem_no_undefined_behaviour
* `Properties_CoreExtra`: inc_problem_permute, inc_problem_refused_removal, estimator_before_first_estimate, estimator_first_batch_is_accepted
* `Properties_Exact`: inc_problem_clear_keeps_backup, inc_problem_mutated_batch, estimator_missing_group, estimator_missing_group_for_ever
* `Properties_Estimator`: estimator_acceptance_rule, estimator_add_batch_returns_iff, estimator_rejected_batch_leaves_no_trace, estimator_marginal_block_is_trailing, estimator_runs_are_logged, estimator_throwing_add_refuted, estimator_throwing_add_outcome, estimator_remove_batch, estimator_layout_after_rejection, estimator_contains_accepted_batches, estimator_published_after_accept, estimator_published_after_reoptimize, estimator_reoptimize_throw_refuted, estimator_reoptimize_outcome
* `Properties_Report`: estimator_marginal_order, inc_problem_add_order, td_verbose_report, ego_verbose_report, car_verbose_report_refuted, car_report_refuted, td_report_labels_refuted, td_report_complete_iff, ego_report_complete_iff, td_report_content, car_report_content
* `Properties_Grid`: grid_cells_one_to_one, grid_iteration_complete, grid_constructor_int, grid_counts_int, grid_point_to_cell_int, grid_centre_round_trip_int, grid_centre_round_trip_int_refuted, grid_index_rejected_iff, grid_negative_index_refuted
* `Properties_Tighten3`: grid_coordinates_domain
* `Properties_Exact2`: grid_negative_index, spline_clear_exactly, add_spline_exactly
* `Properties_Histogram`: histogram_count_unique
* `Properties_VectorDV`: vector_dv_refines, vector_dv_revert, vector_dv_revert_once, vector_dv_parameters, vector_dv_dimension, vector_dv_copy
* `Properties_Tighten8`: vector_dv_outcome, car_active_exactly, addSpline_null
* `Properties_Normal`: ml1_weighted_size_mismatch
* `Properties_Uniform`: uniform_mode
* `Properties_Tighten10`: flush_outcome
* `Properties_Calibrator`: ego_windows_nonempty, td_terms_spec, car_terms_spec, usable_in_range, car_rear_variance_refuted, car_rear_variance_agreeing, motion_terms, motion_terms_adjacent, motion_terms_refuted, motion_terms_unsorted_refuted
* `Properties_DesignVars`: td_addToBatch_spec, td_parameters_complete, td_group_dimension, car_addToBatch_spec, car_parameters_refuted, car_parameters_content, car_group_dimension, ego_new_last, ego_parameters, ego_addToBatch_spec, addSpline_ok, addSpline_twice, add_all_spec, spline_clear_refuted, spline_listed_without_clear, spline_owner_refuted, spline_owner_without_rejection
* `Properties_Tighten6`: td_active_exactly, getSpline_outcome, sp_clear_outcome, spline_active_added
* `Properties_Camera`: camera_refuses_uninitialised, camera_initialisation_is_permanent, camera_batches, camera_conservation, camera_observations_in_use, getTransformation_bounds, getTransformation_one_batch, getTransformation_refuted, estimator_exception_is_fatal, full_batch_not_retried, lowered_limit_never_processes, zero_batch_size_never_processes, process_twice_gives_empty_batch, process_before_images
* `Properties_Vision`: vision_reset, incomplete_frame
* `Properties_Timestamp`: timestamp_compare_double, timestamp_nan_refuted
* `Properties_Tighten13`: user_settings, user_values
* `Properties_NormalMv`: mlM_covariance_symmetric, mlM_weighted_edge
* `Properties_Randomizer`: get_samples, seed_reproducible, seed_refuted
* `Properties_Deviations`: ego_getSpline_outcome, ego_getSpline_refuted, car_program_deviations_refuted, car_deviations_refuted, car_deviations_content
* `Properties_LrfSim`: landmarks_no_data
* `Properties_LrfDriver`: lrf_batch_contents, lrf_starts_values, lrf_starts_never_ends, lrf_partition, lrf_program
* `Properties_EgoData`: ego_times_spec, ego_times_end, ego_times_never_end
* `Properties_EgoKin`: ego_clear
* `Properties_Options`: tsvd_options_read, car_options_read, td_options_read, ego_options_read, options_total, td_sim_read, ego_sim_sensors, ego_trajectory_read
* `Properties_Solver`: adapter_solve, adapter_analyze, adapter_init, estimator_failed_analysis_refuted, adapter_memory, adapter_leak_refuted
* `Properties_SolverHistory`: adapter_history, adapter_curvature_refuted
* `Properties_SimDriver`: write_spline_samples, samples_times, write_all_good, write_all_missing_rotation, write_spline_never_ends, write_all_other_batch_refuted
* `Properties_CameraDriver`: cam_program_batches, cam_program_failure, cam_program_last_failure, cam_program_empty, cam_program_no_target_refuted, cam_program_empty_batch_refuted, cam_saved_images_refuted
* `Properties_CameraFile`: cam_type_refused
* `Properties_CameraOptions`: cam_huge_batch
* `Properties_Text`: exception_text, exception_text_unambiguous, exception_text_refuted, stream_text, object_text_unambiguous, grid_text, stream_round_trip_refuted
* `Properties_Singleton`: singleton_at_most_one, singleton_getInstance, singleton_second_construction_refused, singleton_first_construction, singleton_destroyed, singleton_same_until_destroyed, singleton_threads_never_null, singleton_threads_after_first, singleton_single_thread, singleton_threads_throw_refuted, singleton_threads_two_objects_refuted
* `Properties_Python`: python_no_dangling_owner, python_problem_kept, python_no_references_safe, python_growing_safe, python_rejected_batch_growing, python_no_removal_safe, python_reference_after_remove_refuted, python_batch_dangles_refuted, python_rejected_again_dangles_refuted
* `Properties_TextObjects`: value_text, vector_text, calibration_text, car_text, report_unambiguous, randomizer_text, randomizer_seed_refuted
* `Properties_Tighten11`: randomizer_generator
* `Properties_Values`: objects_are_values, same_biography, calls_are_local
* `Properties_Templates`: template_formulas, template_selection, one_overload, template_names_refuted

**sig_forall_dec** (9 theorems):

* `Properties_Tighten11`: copies_are_equal
* `Properties_ErrorTerm`: set_covariance_no_effect, weight_is_first_covariance
* `Properties_SimEngine`: integrate_position
* `Properties_EgoData`: ego_other_sensors, ego_missing_calibration
* `Properties_EgoKin`: ego_predictions
* `Properties_Options`: ego_sim_duplicate_refuted
* `Properties_FunctionObj`: loggamma_for_logfactorial_refuted

**sig_forall_dec, functional_extensionality_dep** (137 theorems):

* `Properties_Estimator`: estimator_gains_telescope
* `Properties_Grid`: grid_constructor_real, grid_counts_real, grid_point_to_cell_real, grid_centre_round_trip_real, grid_centre_round_trip_refuted
* `Properties_Histogram`: histogram_counts_real, histogram_counts_int, histogram_statistics_real, histogram_statistics_int, histogram_normalized, histogram_statistics_multi
* `Properties_Tighten3`: histogram_normalized_bins, histogram_median_negative, vision_numbering, ego_segments, ego_rate_overflow
* `Properties_Uniform`: uniform_support_real, uniform_mass_int, uniform_support_int, uniform_mean_midpoint_iff, uniform_mean_refuted, uniform_variance_int, uniformM_support_real, uniformM_density_real, uniformM_mean_midpoint_iff, uniformM_covariance_iff, uniformM_covariance_refuted
* `Properties_Randomizer`: uniform_sample_real, uniform_sample_int, uniform_getSample_real, categorical_sample, categorical_positive, categorical_zero_refuted, uniform_sample_int_refuted
* `Properties_Calibrator`: calibrator_conservation, calibrator_no_duplicates, calibrator_history, calibrator_window_length, calibrator_add_due, calibrator_windows_tile, calibrator_window_times, td_windows_nonempty, car_windows_nonempty, spline_segments, spline_segments_refuted, ego_reference_gap_refuted, ego_reference_gap_reached, ego_reference_pending_ok, calibrator_failure_refuted, calibrator_failure_in_splines
* `Properties_Tighten`: calibrator_clear_and_window, spline_segments_exact, cam_options_defaults
* `Properties_ErrorTerm`: velocities_jacobians, weight_follows_covariance_refuted
* `Properties_Vision`: vision_ids, match_target_ok, match_source_iff, match_source_refuted, keyframe_criterion, first_frame, no_tracks_undefined
* `Properties_Tighten4`: gamma_cdf_quantile, gamma_cdf_inverts
* `Properties_Tighten11`: matrix_constructor, matrix_constructor_inverse_refuted
* `Properties_Geometry`: set_matrix_transform
* `Properties_SimRun`: spline_segments_defined, ego_simulated_run, ego_simulated_run_returns
* `Properties_Tighten10`: td_flush_same_time_refuted, car_flush_same_time_refuted
* `Properties_CameraValidator`: statistics_maximum, outliers_count, validator_history, validator_addImage_result, validator_outliers
* `Properties_EgoSim`: count_exists
* `Properties_EgoData`: ego_measurements, ego_hand_eye, ego_calibrator_consistent, ego_dead_reckoning
* `Properties_CarDriver`: car_program_conservation, car_program_end
* `Properties_Kinematics`: point_velocity_body, imu_velocity_body, car_dmi_terms, car_steering_terms, car_front_terms, car_rear_terms, car_velocity_terms, car_pose_terms, car_terms_agree, td_wheel_terms
* `Properties_TdPredict`: td_terms_agree
* `Properties_EgoKin`: ego_dead_reckoned_poses, ego_reference_terms_at_start, ego_motion_terms
* `Properties_Options`: estimator_config_read, estimator_group_id_refuted, car_cutoff_refuted, spline_order_default_refuted
* `Properties_Tighten5`: calibrator_defaults, trajectory_defaults
* `Properties_SimDriver`: td_simulator_conservation, td_simulator_returns, ego_simulator_conservation, ego_simulator_returns, ego_simulator_end_refuted
* `Properties_CameraOptions`: cam_options_read, cam_options_total, cam_validator_agrees, cam_calibrator_config, cam_calibrator_bad_type, cam_required_keys_refuted, cam_negative_batch_refuted, cam_group_ids_refuted
* `Properties_Tighten8`: cam_option_default, camv_option_default, cam_default_options
* `Properties_ValidatorProgram`: validator_program, validator_stale_image_refuted, validator_first_image_refuted
* `Properties_Tighten9`: validator_first_image_outcome, uniform_mean_floating, uniform_box_unsigned
* `Properties_UniformTypes`: uniform_support_unsigned, uniform_mass_unsigned, uniform_whole_unsigned_refuted, uniformM_mass_int
* `Properties_RandomizerTypes`: categorical_integral_refuted
* `Properties_HistoryFiles`: history_files, history_files_step, ego_history_files, history_files_failed_refuted, history_files_rejected_refuted

**sig_forall_dec, sig_not_dec, functional_extensionality_dep** (94 theorems):

* `Properties_Uniform`: uniform_density_real
* `Properties_Geometry`: transformation2_meaning, transformation2_inversions, transformation2_inverse, transformation3_meaning, transformation3_inversions, transformation3_inverse, transformation2_double_inverse_iff, transformation2_double_inverse_refuted, transformation3_double_inverse_iff, transformation3_double_inverse_refuted, set_matrix_inverse_refuted, set_matrix_inverse3_refuted, set_matrix_inverse_wrong_refuted
* `Properties_Geodetic`: bestQuat_same_rotation, bestQuat_hemisphere, bestQuat_closest, bestQuat_representative, rotPoses_continuous, enu_axes, ned_axes, ned_enu, ecef2enu_inverse, ecef2ned_inverse, frames_rigid, reference_is_origin, wgs84_altitude, wgs84_on_ellipsoid, wgs84_vertical_is_normal, wgs84_moves_east, wgs84_moves_north, wgs84_injective
* `Properties_ErrorTerm`: motion_jacobians, motion_partial_derivatives, wheel_jacobians_rear, wheel_front_derivative, wheel_jacobians_front_forward, wheel_jacobians_front_refuted
* `Properties_Tighten11`: wgs84_axes
* `Properties_CameraValidator`: last_image_average_value, last_image_average_refuted
* `Properties_LrfSim`: landmarks_first_sighting, landmarks_undefined_refuted
* `Properties_SimEngine`: integrate_rotation, integrate_no_rotation, integrate_unit, integrate_planar
* `Properties_Tighten7`: integrate_threshold
* `Properties_CarDriver`: car_driver_reads_everything, car_solutions, car_first_pose_origin, car_pose_distances, car_position_variance_refuted, car_position_variance_equal, car_velocity_variance_refuted, car_wheels_and_steering, car_odometer, car_odometer_distance, car_odometer_refuted, car_mistyped_message_refuted, car_same_topic_refuted, car_no_performance_refuted
* `Properties_Tighten2`: car_variances, car_shared_topic_undefined, car_same_navigation_topic_refuted, car_solution_topic_shared_refuted
* `Properties_Kinematics`: init_poses_consistent, turned_wheel_ground_speed
* `Properties_Tighten12`: spline_fit_request
* `Properties_EgoKin`: ego_trajectory_total, ego_predict_moves_refuted, ego_predict_harmless, ego_predict_returns, ego_predict_uncalibrated, ego_window_closed, ego_add_window, ego_uncalibrated_refuted, ego_uncalibrated_reached
* `Properties_CameraFile`: cam_write_values, cam_type_roundtrip, cam_sigma_order, cam_write_no_batch_refuted, cam_sigma_order_refuted
* `Properties_Tighten`: cam_std_defined
* `Properties_PoseJacobian`: s_matrix_defining, s_matrix_unique, pose_jacobian_gimbal_refuted
* `Properties_UniformTypes`: uniform_mass_floating, uniform_long_double_refuted
* `Properties_NormalLaw`: normal_termination_limit
* `Properties_CarFiles`: car_files_are_calls, car_files_times, car_files_complete, car_files_times_refuted

**sig_forall_dec, classic, functional_extensionality_dep** (3 theorems):

* `Properties_SamplerLaw`: categorical_law, uniform_law, uniform_int_law_refuted

**sig_forall_dec, sig_not_dec, classic, functional_extensionality_dep** (175 theorems):

* `Properties_Grid`: grid_arithmetics_covered, grid_point_to_cell_double, grid_point_to_cell_double_refuted, grid_constructor_double_refuted
* `Properties_Tighten`: grid_double_centre
* `Properties_Normal`: ml1_running_estimate, ml1_order_independent, ml1_reset_forgets, ml1_reset_keeps_distribution, ml1_weighted, normal1_cached_consistent, normal1_setters, normal1_density, normal1_cdf, normal1_KL, normal1_mahalanobis, normal1_double_variance, normal1_double_nan_variance_refuted, ml1_double_empty_range_valid_refuted
* `Properties_Tighten4`: ml1_count_overflow_refuted, gamma_sample_scales, gamma_sample_fraction, uniform_double_rejects, geometric_double_range, double_constants, gamma_integral_shape
* `Properties_Tighten12`: normal1_program, normal1_program_throws, predict_spline_request
* `Properties_NormalMoments`: normal1_moments, normal1_KL_integral
* `Properties_NormalMv`: normalM_rejected_covariance, normalM_rejected_covariance_refuted, normalM_accepted_covariance, normalM_factor_consistent, mlM_running_estimate, mlM_order_independent, mlM_weighted
* `Properties_Uniform`: uniform_variance_real
* `Properties_Gamma`: gamma_KL_agreement, gamma_KL_refuted, log_factorial_correct, log_gamma_nat_correct, log_gamma_nat_recurrence, log_gamma_dim_correct, gamma_parameters_real, gamma_parameters_nat, gamma_density_real, gamma_mass_real, gamma_moments_nat, gamma_mode_real, chi_square_degrees, chi_square_median
* `Properties_GammaKL`: gamma_KL_integral, gamma_KLDivergence_exactly
* `Properties_Randomizer`: uniform_sample_double_bounds, uniform_unit_double, uniform_sample_double_refuted, normal_sample_real, normal_sample_terminates, normal_sample_int_refuted, poisson_sample, poisson_sample_unique, exponential_sample, geometric_sample, geometric_double_refuted, gamma_sample
* `Properties_MatrixOps`: sum_log_diag, sum_log_diag_split, sum_log_diag_full
* `Properties_ErrorTerm`: observation_jacobians, steering_jacobians, steering_derivative
* `Properties_Timestamp`: timestamp_compare, timestamp_order, timestamp_arithmetic, timestamp_add_monotone, timestamp_add_sub_exact, timestamp_add_sub_refuted, timespec_nonnegative, timespec_refuted
* `Properties_Histogram`: histogram_in_range_sample_double_refuted, histogram_add_double
* `Properties_Exact3`: timespec_negative, timespec_undefined
* `Properties_LrfSim`: sine_path_length, sine_path_no_time, sine_path_heading, sine_path_speed, simulation_lengths, simulated_observation_error, simulated_motion_error, simulated_motion_error_refuted, simulated_poses, noiseless_odometry, sine_simulation, landmarks_reconstructed
* `Properties_Tighten7`: lrf_simulate_first, online_run_no_data, td_simulate_first
* `Properties_LrfDriver`: online_keeps_informative, online_determinant_decreases, online_overrun, online_never_ends
* `Properties_SimEngine`: td_simulation, td_never_ends, td_unit, td_heading, td_straight, td_wheel_residual, td_midpoint, td_delay_opposite_sign, td_delay_refuted
* `Properties_EgoSim`: ego_trajectory_single, ego_trajectory_combined, ego_trajectory_stamps, ego_trajectory_never_ends, ego_straight, ego_combined_jump
* `Properties_Kinematics`: pose_error_at_start, pose_error_gimbal_refuted, pose_predictions, velocity_predictions, dmi_predictions, steering_predictions, front_predictions, rear_predictions, predict_reports_batch_errors, predict_accumulates, predict_few_poses_refuted, td_predictions_errors, td_prediction_refuted, td_prediction_right_refuted
* `Properties_Tighten6`: eval_term_weighted, eval_term_errors
* `Properties_TdPredict`: td_predict_reports_batch_errors, td_predict_times, td_predict_accumulates, td_predict_few_poses_refuted
* `Properties_SimRun`: td_simulated_run
* `Properties_PoseJacobian`: pose_jacobian_derivative
* `Properties_NormalMv2`: normalM_mahalanobis, normalM_density, normalM_KL, normalM_estimator_states
* `Properties_RandomizerTypes`: poisson_integral, poisson_double, poisson_integral_mean_refuted, exponential_integral_refuted, geometric_integral_refuted, gamma_integral_refuted, poisson_double_large_mean_refuted
* `Properties_EstDouble`: est_double_sums, est_double_order, est_double_variance, est_double_accepts, est_double_constant, est_double_valid_iff, est_double_poisoned_refuted, est_double_distinct_refuted, est_double_equal_refuted, est_double_order_refuted
* `Properties_SamplerLaw`: poisson_law, exponential_law, geometric_law, gamma_integer_law
* `Properties_GammaLaw`: gamma_fraction_law
* `Properties_GammaShapeLaw`: gamma_shape_law
* `Properties_NormalLaw`: normal_law, normal_termination_law
* `Properties_TextObjects`: distribution_text, estimator_text
* `Properties_FunctionObj`: function_objects, function_objects_total, gamma_functions_complementary

